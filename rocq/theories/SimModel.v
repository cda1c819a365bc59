(** Model of the stand-alone simulator: src/apps/StandAloneSimulator/Simulator.cc, Agenda.cc,
    TimingService.cc, CommandResponseManager.cc (and, for LookupNow, IpcCommRelay.cc).

    Two threads run this code: the main thread (simulatorTopLevel) and the IPC dispatch thread
    (scheduleResponseForCommand, getLookupNowResponse).  They are modelled statement by statement, so
    that they interleave between any two accesses to the agenda, the timer or the clock; one access is
    one step.

    Simplifications: a timeval is its number of microseconds (C50 proves that the arithmetic and the
    comparisons of timeval-utils.cc agree with that, for the normal timevals met here); values of states
    and commands are opaque tokens; system calls succeed; signals other than SIGALRM and stop() are left
    out, as is m_Stop; the interval timer fires exactly when the clock reaches its expiry, and its signal
    is one flag (SIGALRM does not queue); the message IDs are numbers; unsynchronised reads of the
    LookupNow map while it is written (undefined behaviour) see the old or the new map. *)
From Coq Require Import ZArith List Bool String.
Import ListNotations.
Open Scope Z_scope.

Definition million : Z := 1000000.
(** The two fields of a timeval (non-negative times only are taken apart). *)
Definition sec (t : Z) : Z := t / million.
Definition usec (t : Z) : Z := t mod million.

(** ResponseMessage.hh 38-90: kind (MSG_COMMAND or MSG_TELEMETRY), name, value, ID. *)
Inductive kind : Type := Telemetry | CommandReturn.
Record msg : Type := Msg { mKind : kind; mName : string; mVal : nat; mId : nat }.

(** GenericResponse.hh 36-57; [rCount] is numberOfResponses. *)
Record resp : Type := Resp { rVal : nat; rDelay : Z; rCount : nat }.

(** CommandResponseManager.cc 40-43: m_CmdIdToResponse, m_DefaultResponse, m_Counter. *)
Record mgr : Type := Mgr { indexed : list (Z * resp); dflt : option resp; counter : Z }.
Fixpoint findZ {A} (k : Z) (l : list (Z * A)) : option A :=
  match l with [] => None | (j, a) :: r => if k =? j then Some a else findZ k r end.
Fixpoint findS {A} (k : string) (l : list (string * A)) : option A :=
  match l with [] => None | (j, a) :: r => if String.eqb k j then Some a else findS k r end.
(** std::map::operator[] assignment. *)
Fixpoint setS {A} (k : string) (a : A) (l : list (string * A)) : list (string * A) :=
  match l with [] => [(k, a)] | (j, b) :: r => if String.eqb k j then (j, a) :: r else (j, b) :: setS k a r end.
(** CommandResponseManagerImpl constructor 46-52; addResponse 69-84. *)
Definition newMgr : mgr := Mgr [] None 1.
Definition addResponse (r : resp) (i : Z) (m : mgr) : mgr :=
  match findZ i (indexed m) with
  | Some _ => m
  | None => if i =? 0 then Mgr (indexed m) (Some r) (counter m)
            else Mgr (indexed m ++ [(i, r)]) (dflt m) (counter m)
  end.
(** getResponses 86-114; None in the first component: the assertion at 106 fails. *)
Definition nextResponse (m : mgr) : option resp * mgr :=
  (match findZ (counter m) (indexed m) with Some r => Some r | None => dflt m end,
   Mgr (indexed m) (dflt m) (counter m + 1)).

(** What an observer (or the IPC channel) sees. *)
Inductive event : Type :=
| Started (now : Z)                      (* the telemetry of the scripts is scheduled relative to [now] *)
| Scheduled (at_ : Z) (m : msg)          (* a command's response enters the agenda for the time [at_] *)
| Sent (now at_ : Z) (m : msg)           (* a message scheduled for [at_] goes out at [now] *)
| Answered (now : Z) (cmd : string) (id : nat) (r : option resp)   (* the manager's choice for a command *)
| Lookup (state : string) (v : option nat)
| Disarmed (t : Z).                      (* setitimer was called with a zero interval *)

(** The shared state. *)
Record shared : Type := Shared {
  agenda : list (Z * msg);           (* Agenda.cc 41-42 *)
  values : list (string * nat);      (* m_LookupNowValueMap *)
  timer : option Z;                  (* ITIMER_REAL: absolute expiry time *)
  alarm : bool;                      (* SIGALRM is pending *)
  clock : Z;
  mgrs : list (string * mgr);        (* m_CmdToRespMgr *)
  ready : bool;                      (* m_nBlockedSignals != 0 *)
  trace : list event;                (* newest first *)
  crashed : bool
}.
Definition setAgenda a s := Shared a (values s) (timer s) (alarm s) (clock s) (mgrs s) (ready s) (trace s) (crashed s).
Definition setValues v s := Shared (agenda s) v (timer s) (alarm s) (clock s) (mgrs s) (ready s) (trace s) (crashed s).
Definition setTimerAlarm t b s := Shared (agenda s) (values s) t b (clock s) (mgrs s) (ready s) (trace s) (crashed s).
Definition setClock c s := Shared (agenda s) (values s) (timer s) (alarm s) c (mgrs s) (ready s) (trace s) (crashed s).
Definition setMgrs m s := Shared (agenda s) (values s) (timer s) (alarm s) (clock s) m (ready s) (trace s) (crashed s).
Definition setReady s := Shared (agenda s) (values s) (timer s) (alarm s) (clock s) (mgrs s) true (trace s) (crashed s).
Definition emit e s := Shared (agenda s) (values s) (timer s) (alarm s) (clock s) (mgrs s) (ready s) (e :: trace s) (crashed s).
Definition crash s := Shared (agenda s) (values s) (timer s) (alarm s) (clock s) (mgrs s) (ready s) (trace s) true.

(** Agenda.cc 115-122: scheduleResponse. *)
Fixpoint insert (t : Z) (m : msg) (l : list (Z * msg)) : list (Z * msg) :=
  match l with
  | [] => [(t, m)]
  | (u, n) :: r => if u <? t then (u, n) :: insert t m r else (t, m) :: (u, n) :: r
  end.
(** Agenda.cc 83-92: setSimulatorStartTime. *)
Definition shift (d : Z) (l : list (Z * msg)) : list (Z * msg) := map (fun e => (fst e + d, snd e)) l.
(** Agenda.cc 94-101: nextResponseTime. *)
Definition nextTime (l : list (Z * msg)) : Z := match l with [] => 0 | (t, _) :: _ => t end.

(** Where a thread is. *)
Inductive pc : Type :=
| Idle                                     (* main: waiting in TimingService::wait; IPC: no message *)
| Start                                    (* simulatorTopLevel 124-125, before signal handling is set up *)
| StartRead | StartShift (now : Z) | StartFirst
| Cmd (c : string) (id : nat)              (* scheduleResponseForCommand 193 *)
| CmdChoose (c : string) (id : nat) (t0 : Z)     (* constructNextResponse 237 *)
| CmdRead (c : string) (id : nat) (t0 : Z) (r : resp)    (* scheduleMessage 267 *)
| CmdInsert (t0 t : Z) (m : msg)           (* scheduleMessage 274 *)
| GetTimer (t : Z)                         (* scheduleNextResponse 280, getTimer 206-214 *)
| GetNow (t rem : Z)                       (* getTimer 217-220, scheduleNextResponse 281 *)
| SetTimer (t : Z)                         (* scheduleNextResponse 285, setTimer 178-198 *)
| Wake                                     (* handleWakeUp 305 *)
| LoopEmpty (now : Z)                      (* 315 *)
| LoopHead (now : Z)                       (* 316-320 *)
| LoopPop (now : Z)                        (* 322 *)
| LoopRecord (now t : Z) (m : msg)         (* 325-328 *)
| LoopSend (now t : Z) (m : msg)           (* 334 *)
| Next.                                    (* 343-349 *)

(** One step of a thread that is not idle.  [t <? nextEvent] at GetNow is scheduleNextResponse 281-282. *)
Definition tstep (p : pc) (s : shared) : pc * shared :=
  match p with
  | Idle => (Idle, s)
  | Start => (StartRead, setReady s)
  | StartRead => (StartShift (clock s), s)
  | StartShift n => (StartFirst, emit (Started n) (setAgenda (shift n (agenda s)) s))
  | StartFirst =>
      match agenda s with
      | [] => (Idle, s)
      | (t, _) :: _ => if (sec t =? 0) && (usec t =? 0) then (Idle, s) else (GetTimer t, s)
      end
  | Cmd c id => (CmdChoose c id (clock s), s)
  | CmdChoose c id t0 =>
      match findS c (mgrs s) with
      | None => (Idle, s)
      | Some m =>
          let (o, m') := nextResponse m in
          let s' := emit (Answered (clock s) c id o) (setMgrs (setS c m' (mgrs s)) s) in
          match o with
          | None => (Idle, crash s')
          | Some r => if (0 <? rCount r)%nat then (CmdRead c id t0 r, s') else (Idle, s')
          end
      end
  | CmdRead c id t0 r => (CmdInsert t0 (clock s + rDelay r) (Msg CommandReturn c (rVal r) id), s)
  | CmdInsert t0 t m => (GetTimer t0, emit (Scheduled t m) (setAgenda (insert t m (agenda s)) s))
  | GetTimer t =>
      match timer s with
      | None => (SetTimer t, s)
      | Some e => (GetNow t (e - clock s), s)
      end
  | GetNow t rem => if t <? clock s + rem then (SetTimer t, s) else (Idle, s)
  | SetTimer t =>
      if ready s then
        let v := t - clock s in
        if v <? 0 then (Wake, s)
        else if v =? 0 then (Idle, emit (Disarmed t) (setTimerAlarm None (alarm s) s))
        else (Idle, setTimerAlarm (Some t) (alarm s) s)
      else (Idle, crash s)
  | Wake => (LoopEmpty (clock s), s)
  | LoopEmpty n => match agenda s with [] => (Next, s) | _ :: _ => (LoopHead n, s) end
  | LoopHead n => if n <? nextTime (agenda s) then (Next, s) else (LoopPop n, s)
  | LoopPop n =>
      match agenda s with
      | [] => (Idle, crash s)
      | (t, m) :: r => (LoopRecord n t m, setAgenda r s)
      end
  | LoopRecord n t m =>
      (LoopSend n t m, match mKind m with Telemetry => setValues (setS (mName m) (mVal m) (values s)) s | CommandReturn => s end)
  | LoopSend n t m => (LoopEmpty n, emit (Sent (clock s) t m) s)
  | Next =>
      let t := nextTime (agenda s) in
      if negb (sec t =? 0) && negb (usec t =? 0) then (GetTimer t, s) else (Idle, s)
  end.

(** The clock advances; the interval timer fires. *)
Definition tick (d : Z) (s : shared) : shared :=
  let c := clock s + d in
  match timer s with
  | Some e => if e <=? c then setTimerAlarm None true (setClock c s) else setClock c s
  | None => setClock c s
  end.

Record world : Type := World { main : pc; ipc : pc; sh : shared }.

(** What can happen next.  Every one is one step of the whole process. *)
Inductive act : Type :=
| Tick (d : Z)
| RunMain                        (* the main thread's next statement, or its return from sigwait *)
| RunIpc
| NewCommand (c : string) (id : nat)
| NewLookup (state : string).    (* IpcCommRelay.cc 124-146, Simulator.cc 210-216 *)

Definition stepw (a : act) (w : world) : world :=
  if crashed (sh w) then w else
  match a with
  | Tick d => if 0 <=? d then World (main w) (ipc w) (tick d (sh w)) else w
  | RunMain =>
      match main w with
      | Idle => if alarm (sh w) then World Wake (ipc w) (setTimerAlarm (timer (sh w)) false (sh w)) else w
      | p => let (p', s') := tstep p (sh w) in World p' (ipc w) s'
      end
  | RunIpc => let (p', s') := tstep (ipc w) (sh w) in World (main w) p' s'
  | NewCommand c id => match ipc w with Idle => World (main w) (Cmd c id) (sh w) | _ => w end
  | NewLookup n => match ipc w with Idle => World (main w) (ipc w) (emit (Lookup n (findS n (values (sh w)))) (sh w)) | _ => w end
  end.
Definition exec (l : list act) (w : world) : world := fold_left (fun w a => stepw a w) l w.

(** PlexilSimulator.cc 125-158: the scripts have filled the agenda and the managers, and the simulator is
    about to run.  [ag] is what scheduleResponse built (times relative to the start). *)
Definition boot (ag : list (Z * msg)) (ms : list (string * mgr)) (now : Z) : world :=
  World Start Idle (Shared ag [] None false now ms false [] false).
(** A telemetry script (PlexilSimResponseFactory.cc 43-69): (delay, state name, value) in script order. *)
Definition scriptAgenda (l : list (Z * (string * nat))) : list (Z * msg) :=
  fold_left (fun a e => insert (fst e) (Msg Telemetry (fst (snd e)) (snd (snd e)) 0) a) l [].
(** A command script (SimulatorScriptReader.cc 285-301 ensureResponseMessageManager, PlexilSimResponseFactory.cc 71-113):
    (command name, index, response) in script order. *)
Definition scriptMgrs (l : list (string * Z * resp)) : list (string * mgr) :=
  fold_left (fun ms e => let '(c, i, r) := e in
    let m := match findS c ms with Some m => m | None => newMgr end in setS c (addResponse r i m) ms) l [].
