(** What a plan that starts, stops and watches other plans may expect. *)
From Coq Require Import ZArith Reals List Bool String.
From Flocq Require Import Core BinarySingleNaN.
From Verif Require Import ValueModel FloatModel TypeModel UdpQueueModel LitModel LitSpec PrintModel LaunchModel.
Import ListNotations.
Open Scope Z_scope.

(** StartPlan(callee, name1, value1, name2, value2, ...). *)
Definition startArgs (callee : str) (ps : list (str * lval)) : list lval :=
  LvS (SS callee) :: flat_map (fun p => [LvS (SS (fst p)); snd p]) ps.
Definition noNul (s : str) : Prop := ~ In 0 s.
(** A Real that is zero or was written with at most 15 digits (and is not too small). *)
Definition fifteen (x : fl) : Prop :=
  is_finite x = true /\
  (B2R x = 0%R \/ exists N j, 0 < Z.abs N < 10 ^ 15 /\ B2R x = nearest (IZR N * powerRZ 10 j) /\ (bpow radix2 (-1022) <= Rabs (IZR N * powerRZ 10 j))%R).
(** Values that can be passed. *)
Definition passable (v : lval) : Prop :=
  match v with
  | LvS (SB _) => True
  | LvS (SI z) => - 2 ^ 31 <= z < 2 ^ 31
  | LvS (SR x) => fifteen x
  | LvS (SS s) => noNul s
  | LvN k i => (0 < i < length (namesOf k))%nat /\ (k = KHandle -> (i <= 6)%nat)
  | _ => False
  end.
Definition same (v w : lval) : Prop :=
  match v, w with
  | LvS (SR x), LvS (SR y) => is_finite y = true /\ B2R y = B2R x
  | _, _ => v = w
  end.
(** The last value given to a state. *)
Definition setBy (name : string) (arg : str) (p : post) : option lval :=
  match p with PValue n a v => if (n =? name)%string && (if str_eq_dec a arg then true else false) then Some v else None | _ => None end.
Fixpoint lastValue (name : string) (arg : str) (l : list post) : option lval :=
  match l with
  | [] => None
  | p :: r => match lastValue name arg r with Some v => Some v | None => setBy name arg p end
  end.
(** The last of the transitions that satisfy p. *)
Definition isLast (p : trans -> Prop) (l : list trans) (t : trans) : Prop :=
  exists before after, l = before ++ t :: after /\ p t /\ Forall (fun u => ~ p u) after.
(** A transition of the plan called id. *)
Definition ofPlan (id : str) (t : trans) : Prop := t_root t = true /\ t_id t = id.
