(** C78: texts that survive the trip. *)
From Coq Require Import ZArith List Bool String.
From Verif Require Import ValueModel FloatModel TypeModel UdpQueueModel LitModel LuvModel.
Import ListNotations.
Open Scope Z_scope.

(** No < and no end-of-message character. *)
Definition clean (s : str) : Prop := ~ In 60 s /\ ~ In 4 s.
Definition cleanTransition (t : transition) : Prop :=
  (t_state t < 8)%nat /\ (t_outcome t < 5)%nat /\ (t_failure t < 7)%nat /\ length (t_conds t) = 13%nat /\
  (forall v, In (Some v) (t_conds t) -> clean v) /\ (forall n, In n (t_path t) -> clean n).
(** A plan as printed begins with its root element. *)
Definition printed (tag : string) (s : str) : Prop := ~ In 4 s /\ exists r, s = 60 :: chars tag ++ r.
Definition cleanEvent (e : levent) : Prop :=
  match e with
  | LTransition t => cleanTransition t
  | LAssign n v => clean n /\ clean v
  | LPlan s => printed "PlexilPlan" s
  | LLibrary s => ~ In 4 s
  end.
