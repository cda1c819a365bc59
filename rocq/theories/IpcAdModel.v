(** The adapter between an executive and IPC: /repo/src/interfaces/IpcAdapter/IpcAdapter.cc (MessageQueueMap.cc is the file
    of UdpAdapter, see UdpQueueModel.v; IpcFacade.cc is in IpcModel.v).
    Two threads: the exec's (commands, lookups, updates) and IPC's (messages received).  A step is what one of them does
    between two points where the other can be noticed; m_lookupMutex is modelled by the steps that are not possible while
    it is held.  Simplifications: a Command is a number; whether XML text or a file could be loaded is given with the
    message; warnings are left out; the adapter is started; a failed assertion or a thrown error ends the program; the map
    of external lookups is an association list compared by the map's order (CacheModel.same_key); updateQueue is one
    step (races on a queue are in UdpQueueModel.v). *)
From Coq Require Import ZArith List Bool String.
From Verif Require Import ValueModel CacheModel UdpQueueModel LitModel IpcModel.
Import ListNotations.
Open Scope Z_scope.

(** ** Names *)
(** std::string::find_first_of(':'), IpcAdapter.cc:643, 733: before and after it. *)
Fixpoint splitColon (s : str) : option (str * str) :=
  match s with
  | [] => None
  | c :: r => if c =? 58 then Some ([], r) else match splitColon r with Some (a, b) => Some (c :: a, b) | None => None end
  end.
(** find(":", 1), :461. *)
Definition splitLabel (s : str) : option (str * str) :=
  match s with [] => None | c :: r => match splitColon r with Some (a, b) => Some (c :: a, b) | None => None end end.
(** (int) of a uint32_t, :885, and back, :464. *)
Definition asInt (n : Z) : Z := if n <? 2147483648 then n else n - 4294967296.
(** uid_lbl, :884-886. *)
Definition cmdLabel (serial : Z) (uid : str) : str := printInteger (asInt serial) ++ chars ":" ++ uid.
(** atoi, :464: strtol in base 10, cut to int; converted to uint32_t. *)
Definition atoiU32 (s : str) : Z :=
  match strtoMag 10 s with Some (neg, m, _) => u32 (fst (longOf neg m)) | None => 0 end.
(** executeSendReturnValueCommand, :459-465: serial number and receiver. *)
Definition parseLabel (s : str) : option (Z * str) :=
  match splitLabel s with Some (a, b) => Some (atoiU32 (cstr a), b) | None => None end.

(** ** The adapter's data *)
(** What the exec's thread is doing: nothing; executeDefaultCommand after publishing (:648-656), before the serial number is
    recorded; lookupNow after publishing, before the serial number is stored (:729-747; m_lookupMutex is held); lookupNow
    at the semaphore (:752); the program has ended. *)
Inductive phase : Type := Idle | Sending (c : cmd) (serial : Z) | Asking (serial : Z) | Waiting | Stopped.
Record xad : Type := mkXad {
  x_fac : facade; x_q : qmap val; x_pend : list (Z * cmd); x_names : list str; x_ext : list (state * val);
  x_sem : nat; x_res : val; x_lstate : state; x_lserial : Z; x_phase : phase }.
Definition unk : val := VUnk UNKNOWN_TYPE.
(** State(), State.cc:39-41: empty name. *)
Definition noState : state := mkState [] [].
Fixpoint extFind (s : state) (m : list (state * val)) : option val :=
  match m with [] => None | (k, v) :: r => if same_key k s then Some v else extFind s r end.
Fixpoint extSet (s : state) (v : val) (m : list (state * val)) : list (state * val) :=
  match m with [] => [(s, v)] | (k, w) :: r => if same_key k s then (k, v) :: r else (k, w) :: extSet s v r end.
Definition declared (n : str) (l : list str) : bool := existsb (fun x => if str_eq_dec n x then true else false) l.
(** parseExternalLookup, :1100-1131: the first declaration of a name counts. *)
Fixpoint declare (l : list (str * val)) (names : list str) (ext : list (state * val)) : list str * list (state * val) :=
  match l with
  | [] => (names, ext)
  | (n, v) :: r => if declared n names then declare r names ext else declare r (names ++ [n]) (extSet (mkState n []) v ext)
  end.
Definition xinit (uid : str) (dup : bool) (decls : list (str * val)) : xad :=
  let '(names, ext) := declare decls [] [] in
  {| x_fac := facade0 uid; x_q := qinit dup; x_pend := []; x_names := names; x_ext := ext;
     x_sem := 0; x_res := unk; x_lstate := noState; x_lserial := 0; x_phase := Idle |}.
Definition setFac f s := {| x_fac := f; x_q := x_q s; x_pend := x_pend s; x_names := x_names s; x_ext := x_ext s;
  x_sem := x_sem s; x_res := x_res s; x_lstate := x_lstate s; x_lserial := x_lserial s; x_phase := x_phase s |}.
Definition setQ q s := {| x_fac := x_fac s; x_q := q; x_pend := x_pend s; x_names := x_names s; x_ext := x_ext s;
  x_sem := x_sem s; x_res := x_res s; x_lstate := x_lstate s; x_lserial := x_lserial s; x_phase := x_phase s |}.
Definition setPend p s := {| x_fac := x_fac s; x_q := x_q s; x_pend := p; x_names := x_names s; x_ext := x_ext s;
  x_sem := x_sem s; x_res := x_res s; x_lstate := x_lstate s; x_lserial := x_lserial s; x_phase := x_phase s |}.
Definition setExt e s := {| x_fac := x_fac s; x_q := x_q s; x_pend := x_pend s; x_names := x_names s; x_ext := e;
  x_sem := x_sem s; x_res := x_res s; x_lstate := x_lstate s; x_lserial := x_lserial s; x_phase := x_phase s |}.
Definition setPhase p s := {| x_fac := x_fac s; x_q := x_q s; x_pend := x_pend s; x_names := x_names s; x_ext := x_ext s;
  x_sem := x_sem s; x_res := x_res s; x_lstate := x_lstate s; x_lserial := x_lserial s; x_phase := p |}.
Definition setLook n v st sr s := {| x_fac := x_fac s; x_q := x_q s; x_pend := x_pend s; x_names := x_names s; x_ext := x_ext s;
  x_sem := n; x_res := v; x_lstate := st; x_lserial := sr; x_phase := x_phase s |}.

(** ** What is seen outside *)
Inductive xack : Type := SentToSystem | Success | Failed | Handle (n : Z).
Inductive xout : Type :=
| OPub (l : list pub)                 (* messages published *)
| OQueue (r : ret val)                (* handleCommandReturn by a message queue, with the queue's name *)
| OReturn (c : cmd) (v : val)         (* handleCommandReturn for a command sent to another executive *)
| OAck (c : cmd) (a : xack) | OAbortAck (c : cmd) | OUpdateAck
| OChange (s : state) (v : val)       (* handleValueChange *)
| OAnswer (v : val)                   (* lookupNow returns *)
| ONotify | OAddPlan (s : str) | OAddLibrary (s : str) | OThrow.
Definition result_ : Type := list xout * xad.
Definition stop (o : list xout) (s : xad) : result_ := (o ++ [OThrow], setPhase Stopped s).

(** ** Commands *)
Definition knownStr (v : val) : option str := match v with VStr s => Some s | _ => None end.
(** executeSendMessageCommand, :423-441: the result of publishMessage is never ERROR_SERIAL. *)
Definition doSendMessage net (c : cmd) (args : list val) (s : xad) : result_ :=
  match args with
  | [VStr m] =>
      let '(o, e, f) := send (x_fac s) net (SMessage m) in
      let s := setFac f s in
      match e with
      | Gives z => if z =? ERROR_SERIAL then stop [OPub o] s else ([OPub o; OAck c Success; ONotify], s)
      | Dies => stop [OPub o] s
      end
  | _ => stop [] s
  end.
(** executeSendReturnValueCommand, :447-477. *)
Definition doSendReturn net (c : cmd) (args : list val) (s : xad) : result_ :=
  match args with
  | [VStr l; v] =>
      match parseLabel l with
      | None => stop [] s
      | Some (serial, uid) =>
          let '(o, e, f) := send (x_fac s) net (SReturn serial uid v) in
          let s := setFac f s in
          match e with
          | Gives z => if z =? ERROR_SERIAL then stop [OPub o] s else ([OPub o; OAck c Success; ONotify], s)
          | Dies => stop [OPub o] s
          end
      end
  | _ => stop [] s
  end.
Definition receiveOn (k : str) (c : cmd) (s : xad) : result_ :=
  let '(r, q) := addRecipient (x_q s) k c in (map OQueue r ++ [OAck c SentToSystem; ONotify], setQ q s).
(** executeReceiveMessageCommand, :482-499; executeReceiveCommandCommand, :504-527. *)
Definition doReceiveMessage (c : cmd) (args : list val) (s : xad) : result_ :=
  match args with [VStr m] => receiveOn m c s | _ => stop [] s end.
Definition doReceiveCommand (c : cmd) (args : list val) (s : xad) : result_ :=
  match args with [VStr n] => receiveOn (commandKey n) c s | _ => stop [] s end.
(** executeGetParameterCommand, :532-568. *)
Definition doGetParameter (c : cmd) (args : list val) (s : xad) : result_ :=
  match args with
  | [VStr l] => receiveOn (paramKey l 0) c s
  | [VStr l; VInt i] => if 0 <=? i then receiveOn (paramKey l (Z.to_nat i)) c s else stop [] s
  | _ => stop [] s
  end.
(** executeUpdateLookupCommand, :570-623. *)
Definition doUpdateLookup net (c : cmd) (args : list val) (s : xad) : result_ :=
  match args with
  | VStr n :: v :: ps =>
      if declared n (x_names s) then
        let st := mkState n ps in
        let s := setExt (extSet st v (x_ext s)) s in
        let '(o, e, f) := send (x_fac s) net (STelemetry n (v :: ps)) in
        let s := setFac f s in
        match e with
        | Gives z => ([OChange st v; OPub o; OAck c (if z =? ERROR_SERIAL then Failed else Success); ONotify], s)
        | Dies => stop [OChange st v; OPub o] s
        end
      else ([OAck c Failed; ONotify], s)
  | _ => stop [] s
  end.
(** executeDefaultCommand up to the assertion, :628-656. *)
Definition remoteCall (name : str) (args : list val) : scall :=
  match splitColon name with Some (d, n) => SCommand n d args | None => SCommand name [] args end.
Definition doDefault net (c : cmd) (name : str) (args : list val) (s : xad) : result_ :=
  let '(o, e, f) := send (x_fac s) net (remoteCall name args) in
  let s := setFac f s in
  match e with
  | Gives z => if z =? ERROR_SERIAL then stop [OPub o] s else ([OPub o], setPhase (Sending c z) s)
  | Dies => stop [OPub o] s
  end.
Fixpoint pendFind (n : Z) (m : list (Z * cmd)) : option cmd :=
  match m with [] => None | (k, c) :: r => if n =? k then Some c else pendFind n r end.
Fixpoint pendSet (n : Z) (c : cmd) (m : list (Z * cmd)) : list (Z * cmd) :=
  match m with [] => [(n, c)] | (k, d) :: r => if n =? k then (k, c) :: r else (k, d) :: pendSet n c r end.
Definition streqb (a b : str) : bool := if str_eq_dec a b then true else false.
(** initialize, :137-160: the six commands of the adapter, and the others. *)
Definition execute net (c : cmd) (name : str) (args : list val) (s : xad) : result_ :=
  if streqb name (chars "SendMessage") then doSendMessage net c args s
  else if streqb name (chars "ReceiveMessage") then doReceiveMessage c args s
  else if streqb name (chars "ReceiveCommand") then doReceiveCommand c args s
  else if streqb name (chars "GetParameter") then doGetParameter c args s
  else if streqb name (chars "SendReturnValue") then doSendReturn net c args s
  else if streqb name (chars "UpdateLookup") then doUpdateLookup net c args s
  else doDefault net c name args s.

(** ** Lookups *)
(** lookupNow, :705-747, up to the assignment of m_pendingLookupSerial. *)
Definition lookupCall (st : state) : scall :=
  match splitColon (s_name st) with Some (d, n) => SLookup n d (s_params st) | None => SLookup (s_name st) [] (s_params st) end.
Definition sentState (st : state) : state :=
  match splitColon (s_name st) with Some (_, n) => mkState n (s_params st) | None => st end.
Definition lookupNow net (st : state) (s : xad) : result_ :=
  match extFind st (x_ext s) with
  | Some v => ([OAnswer v], s)
  | None =>
      let '(o, e, f) := send (x_fac s) net (lookupCall st) in
      let s := setLook (x_sem s) unk (sentState st) (x_lserial s) (setFac f s) in
      match e with Gives z => ([OPub o], setPhase (Asking z) s) | Dies => stop [OPub o] s end
  end.
(** sendPlannerUpdate, :770-789. *)
Definition plannerUpdate net (node : str) (pairs : list (str * val)) (s : xad) : result_ :=
  match pairs with
  | [] => ([], s)
  | _ =>
      let '(o, e, f) := send (x_fac s) net (SUpdate node pairs) in
      let s := setFac f s in
      match e with
      | Gives z => if z =? ERROR_SERIAL then stop [OPub o] s else ([OPub o; OUpdateAck; ONotify], s)
      | Dies => stop [OPub o] s
      end
  end.

(** ** Messages received *)
Definition valOf (p : part) : val := getPlexilMsgValue (p_what p).
Definition offer (k : str) (v : val) (s : xad) : result_ := let '(r, q) := addMessage (x_q s) k v in (map OQueue r, setQ q s).
Fixpoint offerParams (label : str) (i : nat) (vs : list val) (s : xad) : result_ :=
  match vs with
  | [] => ([], s)
  | v :: r => let '(a, s1) := offer (paramKey label i) v s in let '(b, s2) := offerParams label (S i) r s1 in (a ++ b, s2)
  end.
(** handleCommandSequence, :864-896. *)
Definition gotCommand (lead : part) (name : str) (rest : list part) (s : xad) : result_ :=
  let label := cmdLabel (p_serial lead) (p_uid lead) in
  let '(a, s1) := offer (commandKey name) (VStr label) s in
  let '(b, s2) := offerParams label 0 (map valOf rest) s1 in (a ++ b, s2).
(** handleTelemetryValuesSequence, :899-946. *)
Definition gotTelemetry (lead : part) (name : str) (rest : list part) (s : xad) : result_ :=
  match name, rest with
  | _ :: _, p :: ps =>
      if p_count lead =? 0 then ([], s)
      else if p_count lead + 1 =? Z.of_nat (length (lead :: rest)) then
        let st := mkState name (map valOf ps) in
        let v := valOf p in
        if state_eq (x_lstate s) st then ([], setLook (S (x_sem s)) v (x_lstate s) (x_lserial s) s)
        else ([OChange st v; ONotify], s)
      else ([], s)
  | _, _ => ([], s)
  end.
(** handleReturnValuesSequence, :951-1001; parseReturnValue, :1319-1324. *)
Definition MSG_COUNT_CMD_ACK : Z := 65535.
Definition gotReturn (lead : part) (request : Z) (rest : list part) (s : xad) : result_ :=
  if request =? x_lserial s then
    match rest with
    | p :: _ => if p_count lead =? 1 then ([], setLook (S (x_sem s)) (valOf p) (x_lstate s) (x_lserial s) s) else stop [] s
    | [] => stop [] s
    end
  else
    match pendFind request (x_pend s) with
    | None => ([], s)
    | Some c =>
        match rest with
        | p :: _ =>
            if p_count lead =? 1 then
              if p_count p =? MSG_COUNT_CMD_ACK then match valOf p with VHandle n => ([OAck c (Handle n); ONotify], s) | _ => stop [] s end
              else ([OReturn c (valOf p); ONotify], s)
            else stop [] s
        | [] => stop [] s
        end
    end.
(** handleLookupNowMessages, :1006-1060: the value, or that of the state without parameters. *)
Definition lookupReply (st : state) (ext : list (state * val)) : option val :=
  match extFind st ext with
  | Some v => Some v
  | None => match s_params st with [] => None | _ => extFind (mkState (s_name st) []) ext end
  end.
Definition gotLookup net (lead : part) (name : str) (rest : list part) (s : xad) : result_ :=
  match lookupReply (mkState name (map valOf (firstn (Z.to_nat (p_count lead)) rest))) (x_ext s) with
  | None => ([], s)
  | Some v =>
      let '(o, e, f) := send (x_fac s) net (SReturn (p_serial lead) (p_uid lead) v) in
      let s := setFac f s in
      match e with Gives _ => ([OPub o], s) | Dies => stop [OPub o] s end
  end.
(** handlePlanFileMessage, :797-820: the type compared with is AddPlan; handlePlanTextMessage, :826-849. *)
Definition gotPlanFile (c : content) (ok : bool) (f : str) (s : xad) : result_ :=
  if ok then (if typeCode c =? typeCode (KAddPlan []) then ([OAddPlan f; ONotify], s) else ([OAddLibrary f], s)) else ([], s).
Definition gotPlanText (c : content) (ok : bool) (x : str) (s : xad) : result_ :=
  if ok then (if typeCode c =? typeCode (KAddPlan []) then ([OAddPlan x; ONotify], s) else ([OAddLibrary x], s)) else ([], s).
(** receiveMessages, :253-325. *)
Definition receiveMessages net (ok : bool) (ms : list part) (s : xad) : result_ :=
  match ms with
  | [] => ([], s)
  | lead :: rest =>
      match p_what lead with
      | KNotify => ([ONotify], s)
      | KAddLibraryFile f | KAddPlanFile f => gotPlanFile (p_what lead) ok f s
      | KAddLibrary x | KAddPlan x => gotPlanText (p_what lead) ok x s
      | KCommand n => gotCommand lead n rest s
      | KMessage m => offer m (VStr m) s
      | KTelemetry n => gotTelemetry lead n rest s
      | KReturn q _ => gotReturn lead q rest s
      | KLookup n => gotLookup net lead n rest s
      | _ => ([], s)
      end
  end.

(** ** Steps *)
Inductive xop : Type :=
| XExec (net : nat -> bool) (c : cmd) (name : str) (args : list val)   (* executeCommand *)
| XRecord                                                             (* the rest of executeDefaultCommand, :658-665 *)
| XAbort (c : cmd)                                                     (* acknowledgeCommandAbort, :669-673 *)
| XLookup (net : nat -> bool) (st : state) | XStored | XWake           (* lookupNow: to the semaphore, :745; after it, :756-763 *)
| XUpdate (net : nat -> bool) (node : str) (pairs : list (str * val))
| IRecv (net : nat -> bool) (ok : bool) (ms : list part).              (* the IPC thread *)
(** Needs m_lookupMutex: telemetry, :934; LookupNow, :1021; the answer to a pending lookup, :957. *)
Definition needsLookupMutex (ms : list part) (s : xad) : bool :=
  match ms with
  | [] => false
  | p :: _ => match p_what p with KTelemetry _ | KLookup _ => true | KReturn q _ => q =? x_lserial s | _ => false end
  end.
Definition xstep (o : xop) (s : xad) : option result_ :=
  match o, x_phase s with
  | XExec net c name args, Idle => Some (execute net c name args s)
  | XRecord, Sending c n => Some ([OAck c SentToSystem; ONotify], setPhase Idle (setPend (pendSet n c (x_pend s)) s))
  | XAbort c, Idle => Some ([OAbortAck c; ONotify], s)
  | XLookup net st, Idle => Some (lookupNow net st s)
  | XStored, Asking n => Some ([], setPhase Waiting (setLook (x_sem s) (x_res s) (x_lstate s) n s))
  | XWake, Waiting =>
      match x_sem s with
      | O => None
      | S k => Some ([OAnswer (x_res s)], setPhase Idle (setLook k unk noState 0 s))
      end
  | XUpdate net node pairs, Idle => Some (plannerUpdate net node pairs s)
  | IRecv net ok ms, Asking _ => if needsLookupMutex ms s then None else Some (receiveMessages net ok ms s)
  | IRecv net ok ms, Idle | IRecv net ok ms, Sending _ _ | IRecv net ok ms, Waiting => Some (receiveMessages net ok ms s)
  | _, _ => None
  end.
Fixpoint xrun (s : xad) (l : list xop) : option result_ :=
  match l with
  | [] => Some ([], s)
  | o :: r => match xstep o s with
              | None => None
              | Some (a, s1) => match xrun s1 r with None => None | Some (b, s2) => Some (a ++ b, s2) end
              end
  end.
