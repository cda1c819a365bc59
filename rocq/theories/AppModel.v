(** Model of the application layer: src/app-framework/InterfaceManager.cc (posting functions and
    processQueue) and src/app-framework/ExecApplication.cc (step, runExec, the worker thread,
    notifyExec, notifyAndWaitForCompletion, suspend, resume, stop), with any number of threads,
    statement by statement.

    Simplifications.  The input queue is the FIFO proved in C28 (InputProps): each of its calls is
    one step, and a newly allocated entry is blank.  The executive is an arbitrary state machine:
    a state, what each external effect does to it, step, needsStep, deleteFinishedPlans,
    allPlansFinished; while it steps, adapters called from it may post events and notify.  Memory
    is sequentially consistent; m_markCount, m_lastMark are unbounded (unsigned int in the code).
    Calls made before the interfaces are started, semaphore errors and the signal sent by stop()
    to a worker which does not answer within a second are not modelled. *)
From Verif Require Export InputModel.

(** ** Posting (InterfaceManager.cc 96-345, 423-435).  [None]: a null pointer argument. *)
Inductive event :=
| PLookup (s : state) (v : val)
| PCommandAck (c : option nat) (h : Z)
| PCommandReturn (c : option nat) (v : val)
| PCommandAbortAck (c : option nat) (b : bool)
| PUpdateAck (u : option nat) (b : bool)
| PMessage (m : option nat)
| PMessageQueueEmpty
| PMessageAccepted (m : option nat) (handle : list Z)
| PHandleReleased (handle : list Z)
| PPlan (p : nat)
| PMark (n : nat).
(** CommandHandle.hh 41-51. *)
Definition NO_COMMAND_HANDLE : Z := 48.
Definition COMMAND_INTERFACE_ERROR : Z := 57.
Definition COMMAND_HANDLE_MAX : Z := 58.
(** The entry put into the queue, if any. *)
Definition entryFor (e : event) : option content :=
  match e with
  | PLookup s v => Some (initForLookup blank s v)                       (* 96-151 *)
  | PCommandAck None _ => None                                          (* 161-164 *)
  | PCommandAck (Some c) h =>                                           (* 166-180 *)
      Some (initForCommandAck blank c (if (h <=? NO_COMMAND_HANDLE)%Z || (COMMAND_HANDLE_MAX <=? h)%Z then COMMAND_INTERFACE_ERROR else h))
  | PCommandReturn None _ => None                                       (* 189-192 *)
  | PCommandReturn (Some c) v => Some (initForCommandReturn blank c v)  (* 197-222 *)
  | PCommandAbortAck None _ => None                                     (* 230-233 *)
  | PCommandAbortAck (Some c) b => Some (initForCommandAbort blank c b) (* 239-244 *)
  | PUpdateAck None _ => None                                           (* 257-260 *)
  | PUpdateAck (Some u) b => Some (initForUpdateAck blank u b)          (* 266-271 *)
  | PMessage None => None                                               (* 284-287 *)
  | PMessage (Some m) => Some (initForReceiveMessage blank m)           (* 288-292 *)
  | PMessageQueueEmpty => Some (initForMessageQueueEmpty blank)         (* 296-302 *)
  | PMessageAccepted None _ => None                                     (* 310-313 *)
  | PMessageAccepted (Some m) h =>                                      (* 314-322 *)
      match h with [] => None | _ => Some (initForAcceptMessage blank m h) end
  | PHandleReleased h =>                                                (* 330-340 *)
      match h with [] => None | _ => Some (initForReleaseMessageHandle blank h) end
  | PPlan p => Some (initForAddPlan blank p)                            (* 345-361 *)
  | PMark n => Some (initForMark blank n)                               (* 423-435 *)
  end.

(** ** Processing one entry: the switch in processQueue, InterfaceManager.cc 465-577. *)
Inductive eff :=
| FLookup (s : state) (v : val) | FHandle (c : nat) (h : Z) | FReturn (c : nat) (v : val) | FAbort (c : nat) (b : bool)
| FUpdate (u : nat) (b : bool) | FPlan (p : nat) | FReceive (m : nat) | FQueueEmpty | FAccept (m : nat) (handle : list Z)
| FRelease (handle : list Z).
Inductive result := RMark (n : nat) | REff (f : eff) | RNothing | RAssert.
Definition process (c : content) : result :=
  match c_typ c with
  | Q_MARK => match c_pay c with USeq n => RMark n | _ => RAssert end
  | Q_LOOKUP => match c_pay c with UState s => REff (FLookup s (c_val c)) | _ => RAssert end
  | Q_COMMAND_ACK => match c_pay c, c_val c with UCommand k, VHandle h => REff (FHandle k h) | _, _ => RAssert end
  | Q_COMMAND_RETURN => match c_pay c with UCommand k => REff (FReturn k (c_val c)) | _ => RAssert end
  | Q_COMMAND_ABORT => match c_pay c, c_val c with UCommand k, VBool b => REff (FAbort k b) | _, _ => RAssert end
  | Q_UPDATE_ACK => match c_pay c, c_val c with UUpdate k, VBool b => REff (FUpdate k b) | _, _ => RAssert end
  | Q_ADD_PLAN => match c_pay c with UPlan p => REff (FPlan p) | _ => RAssert end
  | Q_RECEIVE_MSG => match c_pay c with UMessage m => REff (FReceive m) | _ => RAssert end
  | Q_MSG_QUEUE_EMPTY => REff FQueueEmpty
  | Q_ACCEPT_MSG => match c_pay c, c_val c with UMessage m, VStr h => REff (FAccept m h) | _, _ => RAssert end
  | Q_RELEASE_MSG_HANDLE => match c_val c with VStr h => REff (FRelease h) | _ => RAssert end
  | Q_UNINITED => RNothing
  end.

(** ** Threads *)
(** Where a thread goes on after runExec: the worker loop, or the caller of notifyExec. *)
Inductive ret := RWorker | RIdle | RWait (n : nat) | RStop2 | RStop4.
(** Local variables of step()/runExec(): which of the two, oldMark, and the return address. *)
Record frame := mkF { f_once : bool; f_old : nat; f_ret : ret }.
Inductive pc :=
| TIdle
(* step(), ExecApplication.cc 442-476, and runExec(), 479-514 *)
| W_start (once : bool) (r : ret) | W_lock (f : frame)
| W_empty (f : frame) (loop : bool)                         (* processQueue: isEmpty() *)
| W_get (f : frame) (loop ns : bool)                        (* processQueue: get() *)
| W_apply (f : frame) (loop ns : bool) (c : content)        (* processQueue: the switch, release() *)
| W_step (f : frame) | W_need (f : frame) | W_clean (f : frame)
| W_unlock (f : frame) (af : bool) | W_postAll (f : frame) (af : bool) | W_postMark (f : frame)
| W_release (r : ret)                                       (* notifyExec: m_execMutex.unlock() *)
(* worker(), 847-878, and waitForExternalEvent(), 887-902 *)
| W_wait | W_chk | W_chk2 | W_go | W_done
| W_crash (c : content)                                     (* failed assertion *)
(* notifyAndWaitForCompletion, 684-699, with markQueue *)
| N_read | N_write (n : nat) | N_put (n : nat) | N_notify (n : nat) | N_wait (n : nat) | N_post (n : nat) | N_test (n : nat)
| T_plan                                                    (* addPlan, 791-816: about to set m_planLoaded *)
| T_resume                                                  (* resume, 572-584: about to notify *)
| S_1 | S_2 | S_3 | S_4 | S_5                               (* stop, 587-636 *)
| Q_in.                                                     (* allPlansFinished, 717-723: mutex held *)
Definition retpc (r : ret) : pc :=
  match r with RWorker => W_wait | RIdle => TIdle | RWait n => N_wait n | RStop2 => S_2 | RStop4 => S_4 end.

(** What the outside can see, in order. *)
Inductive ev :=
| EvPost (t : nat) (e : event)       (* an event was posted *)
| EvNotify (t : nat)                 (* notifyExec: semaphore posted *)
| EvApply (f : eff)                  (* an external effect reached the executive *)
| EvMark (n : nat)                   (* markProcessed *)
| EvStep                             (* the executive stepped *)
| EvReturn (t n : nat)               (* notifyAndWaitForCompletion (mark n) returned *)
| EvFinished (t : nat) (b : bool)    (* allPlansFinished returned b *)
| EvPlanWait (t : nat)               (* waitForPlanFinished returned *)
| EvStopped (t : nat).               (* stop: worker joined *)

Inductive act :=
| Post (e : event) | AddPlan (p : nat) | Notify | NotifyWait | Suspend | Resume | Stop | Query | WaitPlan
| Go.

Section App.
  Context {X : Type}.
  Variable (apply : eff -> X -> X) (execStep clean : X -> X) (needsStep allFinished : X -> bool).

  Record app := mkApp {
    a_x : X; a_q : list content;
    a_markCount : nat; a_lastMark : nat;
    a_sem : nat; a_markSem : nat; a_allSem : nat;
    a_mutex : option nat;
    a_planLoaded : bool; a_stop : bool; a_susp : bool;
    a_pc : nat -> pc; a_tr : list ev }.
  Definition at_ y t p := mkApp (a_x y) (a_q y) (a_markCount y) (a_lastMark y) (a_sem y) (a_markSem y) (a_allSem y) (a_mutex y)
    (a_planLoaded y) (a_stop y) (a_susp y) (upd (a_pc y) t p) (a_tr y).
  Definition emit y e := mkApp (a_x y) (a_q y) (a_markCount y) (a_lastMark y) (a_sem y) (a_markSem y) (a_allSem y) (a_mutex y)
    (a_planLoaded y) (a_stop y) (a_susp y) (a_pc y) (a_tr y ++ [e]).
  Definition setX y x := mkApp x (a_q y) (a_markCount y) (a_lastMark y) (a_sem y) (a_markSem y) (a_allSem y) (a_mutex y)
    (a_planLoaded y) (a_stop y) (a_susp y) (a_pc y) (a_tr y).
  Definition setQ y q := mkApp (a_x y) q (a_markCount y) (a_lastMark y) (a_sem y) (a_markSem y) (a_allSem y) (a_mutex y)
    (a_planLoaded y) (a_stop y) (a_susp y) (a_pc y) (a_tr y).
  Definition setMarks y mc lm := mkApp (a_x y) (a_q y) mc lm (a_sem y) (a_markSem y) (a_allSem y) (a_mutex y)
    (a_planLoaded y) (a_stop y) (a_susp y) (a_pc y) (a_tr y).
  Definition setSems y s m al := mkApp (a_x y) (a_q y) (a_markCount y) (a_lastMark y) s m al (a_mutex y)
    (a_planLoaded y) (a_stop y) (a_susp y) (a_pc y) (a_tr y).
  Definition setMutex y m := mkApp (a_x y) (a_q y) (a_markCount y) (a_lastMark y) (a_sem y) (a_markSem y) (a_allSem y) m
    (a_planLoaded y) (a_stop y) (a_susp y) (a_pc y) (a_tr y).
  Definition setFlags y pl st su := mkApp (a_x y) (a_q y) (a_markCount y) (a_lastMark y) (a_sem y) (a_markSem y) (a_allSem y) (a_mutex y)
    pl st su (a_pc y) (a_tr y).

  Definition put y t (e : event) : app :=
    emit (match entryFor e with Some c => setQ y (a_q y ++ [c]) | None => y end) (EvPost t e).
  Definition postSem y := setSems y (S (a_sem y)) (a_markSem y) (a_allSem y).
  (** notifyExec, 657-681; [bk]: m_runExecInBkgndOnly. *)
  Definition notify (bk : bool) y t (r : ret) : app :=
    match bk, a_mutex y with
    | false, None => at_ (setMutex y (Some t)) t (W_start false r)
    | _, _ => at_ (emit (postSem y) (EvNotify t)) t (retpc r)
    end.
  (** Return from processQueue. *)
  Definition pqReturn (f : frame) (loop ns : bool) : pc :=
    if loop then (if ns then W_step f else W_clean f) else W_step f.

  (** One step of thread t; None: blocked, or a call it cannot make here. *)
  Definition step (bk : bool) (y : app) (t : nat) (a : act) : option app :=
    match a, a_pc y t with
    (* calls *)
    | Post e, TIdle => match e with PMark _ | PPlan _ => None | _ => Some (put y t e) end
    | AddPlan p, TIdle => Some (at_ (put y t (PPlan p)) t T_plan)
    | Notify, TIdle => Some (notify bk y t RIdle)
    | NotifyWait, TIdle => Some (at_ y t N_read)
    | Suspend, TIdle => Some (setFlags y (a_planLoaded y) (a_stop y) true)
    | Resume, TIdle => if a_susp y then Some (at_ (setFlags y (a_planLoaded y) (a_stop y) false) t T_resume) else Some y
    | Stop, TIdle => if a_susp y then Some (at_ (setFlags y (a_planLoaded y) (a_stop y) false) t S_1) else Some (at_ y t S_2)
    | Query, TIdle => match a_mutex y with None => Some (at_ (setMutex y (Some t)) t Q_in) | Some _ => None end
    | WaitPlan, TIdle => if Nat.eqb (a_allSem y) 0 then None else Some (emit (setSems y (a_sem y) (a_markSem y) (pred (a_allSem y))) (EvPlanWait t))
    (* calls made by adapters from within PlexilExec::step *)
    | Post e, W_step _ => match e with PMark _ | PPlan _ => None | _ => Some (put y t e) end
    | Notify, W_step f => Some (emit (postSem y) (EvNotify t))
    (* the rest *)
    | Go, T_plan => Some (at_ (setFlags y true (a_stop y) (a_susp y)) t TIdle)
    | Go, T_resume => Some (notify bk y t RIdle)
    | Go, S_1 => Some (notify bk y t RStop2)
    | Go, S_2 => Some (at_ (setFlags y (a_planLoaded y) true (a_susp y)) t S_3)
    | Go, S_3 => Some (notify bk y t RStop4)
    | Go, S_4 => Some (at_ (postSem y) t S_5)
    | Go, S_5 => match a_pc y 0 with W_done => Some (at_ (emit y (EvStopped t)) t TIdle) | _ => None end
    | Go, Q_in => Some (at_ (emit (setMutex y None) (EvFinished t (allFinished (a_x y)))) t TIdle)
    | Go, N_read => Some (at_ y t (N_write (a_markCount y)))
    | Go, N_write n => Some (at_ (setMarks y (S n) (a_lastMark y)) t (N_put (S n)))
    | Go, N_put n => Some (at_ (put y t (PMark n)) t (N_notify n))
    | Go, N_notify n => Some (notify bk y t (RWait n))
    | Go, N_wait n => if Nat.eqb (a_markSem y) 0 then None else Some (at_ (setSems y (a_sem y) (pred (a_markSem y)) (a_allSem y)) t (N_post n))
    | Go, N_post n => Some (at_ (setSems y (a_sem y) (S (a_markSem y)) (a_allSem y)) t (N_test n))
    | Go, N_test n => if Nat.ltb (a_lastMark y) n then Some (at_ y t (N_wait n)) else Some (at_ (emit y (EvReturn t n)) t TIdle)
    | Go, W_start once r => Some (at_ y t (W_lock (mkF once (a_lastMark y) r)))
    | Go, W_lock f => match a_mutex y with None => Some (at_ (setMutex y (Some t)) t (W_empty f false)) | Some _ => None end
    | Go, W_empty f loop => match a_q y with [] => Some (at_ y t (pqReturn f loop false)) | _ => Some (at_ y t (W_get f loop false)) end
    | Go, W_get f loop ns => match a_q y with
                             | [] => Some (at_ y t (pqReturn f loop ns))
                             | c :: q => Some (at_ (setQ y q) t (W_apply f loop ns c))
                             end
    | Go, W_apply f loop ns c =>
        match process c with
        | RMark n => Some (at_ (emit (setMarks y (a_markCount y) n) (EvMark n)) t (W_get f loop ns))
        | REff e => Some (at_ (emit (setX y (apply e (a_x y))) (EvApply e)) t (W_get f loop true))
        | RNothing => Some (at_ y t (W_get f loop ns))
        | RAssert => Some (at_ y t (W_crash c))
        end
    | Go, W_step f => Some (at_ (emit (setX y (execStep (a_x y))) EvStep) t (if f_once f then W_clean f else W_need f))
    | Go, W_need f => Some (at_ y t (if needsStep (a_x y) then W_step f else W_empty f true))
    | Go, W_clean f => Some (at_ (setX y (clean (a_x y))) t (W_unlock f (allFinished (clean (a_x y)))))
    | Go, W_unlock f af => Some (at_ (setMutex y None) t (W_postAll f af))
    | Go, W_postAll f af => Some (at_ (if a_planLoaded y && af then setSems y (a_sem y) (a_markSem y) (S (a_allSem y)) else y) t (W_postMark f))
    | Go, W_postMark f => Some (at_ (if Nat.ltb (f_old f) (a_lastMark y) then setSems y (a_sem y) (S (a_markSem y)) (a_allSem y) else y) t
                                    (match f_ret f with RWorker => W_wait | r => W_release r end))
    | Go, W_release r => Some (at_ (setMutex y None) t (retpc r))
    | Go, W_wait => if Nat.eqb (a_sem y) 0 then None else Some (at_ (setSems y (pred (a_sem y)) (a_markSem y) (a_allSem y)) t W_chk)
    | Go, W_chk => Some (at_ y t (if a_stop y then W_go else W_chk2))
    | Go, W_chk2 => Some (at_ y t (if a_susp y then W_wait else W_go))
    | Go, W_go => if a_stop y then Some (at_ (setFlags y (a_planLoaded y) false (a_susp y)) t W_done) else Some (at_ y t (W_start false RWorker))
    | _, _ => None
    end.

  (** Thread 0 is the worker, about to call step(); all others are outside. *)
  Definition app0 (x : X) : app :=
    mkApp x [] 0 0 0 0 0 None false false false (fun t => if Nat.eqb t 0 then W_start true RWorker else TIdle) [].
  Inductive runs (bk : bool) (x : X) : list (nat * act) -> app -> Prop :=
  | runs_nil : runs bk x [] (app0 x)
  | runs_snoc h y t a y' : runs bk x h y -> step bk y t a = Some y' -> runs bk x (h ++ [(t, a)]) y'.
End App.
