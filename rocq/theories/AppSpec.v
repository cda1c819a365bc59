(** Specification for C29 and C42-C46. *)
From Verif Require Import AppModel.

(** What a posted event must do to the executive, as documented in AdapterExecInterface.hh: nothing
    if a required pointer is null or a handle is empty; an invalid command handle value counts as
    COMMAND_INTERFACE_ERROR. *)
Inductive out := OEff (f : eff) | OMark (n : nat).
Definition want (e : event) : list out :=
  match e with
  | PLookup s v => [OEff (FLookup s v)]
  | PCommandAck (Some c) h => [OEff (FHandle c (if ((48 <? h) && (h <? 58))%Z%bool then h else 57%Z))]
  | PCommandReturn (Some c) v => [OEff (FReturn c v)]
  | PCommandAbortAck (Some c) b => [OEff (FAbort c b)]
  | PUpdateAck (Some u) b => [OEff (FUpdate u b)]
  | PMessage (Some m) => [OEff (FReceive m)]
  | PMessageQueueEmpty => [OEff FQueueEmpty]
  | PMessageAccepted (Some m) (x :: h) => [OEff (FAccept m (x :: h))]
  | PHandleReleased (x :: h) => [OEff (FRelease (x :: h))]
  | PPlan p => [OEff (FPlan p)]
  | PMark n => [OMark n]
  | _ => []
  end.
(** Events posted, and what reached the executive, in order. *)
Definition posts (l : list ev) : list event := flat_map (fun e => match e with EvPost _ p => [p] | _ => [] end) l.
Definition outs (l : list ev) : list out := flat_map (fun e => match e with EvApply f => [OEff f] | EvMark n => [OMark n] | _ => [] end) l.
Definition prefix {A} (a b : list A) : Prop := exists r, b = a ++ r.
(** Every effect so far was followed by a step of the executive. *)
Definition stepped (l : list ev) : Prop := forall l1 f l2, l = l1 ++ EvApply f :: l2 -> In EvStep l2.
(** Everything posted before any notification has been applied. *)
Definition served (l : list ev) : Prop := forall l1 t l2, l = l1 ++ EvNotify t :: l2 -> prefix (flat_map want (posts l1)) (outs l).

(** Two threads are inside markQueue at the same time. *)
Definition inMark (p : pc) : bool := match p with N_write _ | N_put _ => true | _ => false end.
Definition overlap {X} (y : @app X) : Prop := exists t t', t <> t' /\ inMark (a_pc y t) = true /\ inMark (a_pc y t') = true.
(** Some thread has just cleared the suspend flag and will notify next. *)
Definition resuming {X} (y : @app X) : Prop := exists t, a_pc y t = T_resume \/ a_pc y t = S_1.
(** The worker sleeps: it waits and nothing will wake it but a new notification. *)
Definition asleep {X} (y : @app X) : Prop := a_pc y 0 = W_wait /\ a_sem y = 0 /\ a_susp y = false /\ ~ resuming y.
(** Positions in which a thread works on the executive. *)
Definition inExec (p : pc) : bool :=
  match p with
  | W_empty _ _ | W_get _ _ _ | W_apply _ _ _ _ | W_step _ | W_need _ | W_clean _ | W_unlock _ _ | W_crash _ | Q_in => true
  | _ => false
  end.
(** Runs in which no two threads are ever inside markQueue together. *)
Section X.
  Context {X : Type}.
  Variable (apply : eff -> X -> X) (execStep clean : X -> X) (needsStep allFinished : X -> bool) (bk : bool).
  Inductive xruns (x : X) : list (nat * act) -> app -> Prop :=
  | xruns_nil : xruns x [] (app0 x)
  | xruns_snoc h y t a y' : xruns x h y -> step apply execStep clean needsStep allFinished bk y t a = Some y' -> ~ overlap y' -> xruns x (h ++ [(t, a)]) y'.
End X.
