(** Messages between executives: /repo/src/interfaces/IpcUtils/IpcFacade.cc and ipc-data-formats.h.
    A message is a leader and the values that follow it, each published on its own; the receiver puts them together
    again by the sender's name and the serial number.
    Simplifications: the IPC library is not modelled: the channels a facade is subscribed to are the names it gives, and
    whether a publication is accepted is a parameter ([net]); the facade is started; C strings end at the first NUL;
    Reals are their bit patterns (ValueModel.v); freeing of messages is left out, and mutexes too. *)
From Coq Require Import ZArith List Bool String.
From Verif Require Import ValueModel UdpQueueModel.
Import ListNotations.
Open Scope Z_scope.

(** ** Data formats, ipc-data-formats.h:46-374: message type and data in one. *)
Inductive content : Type :=
| KNotify | KCommand (name : str) | KMessage (s : str) | KLookup (name : str) | KTelemetry (name : str)
| KReturn (request : Z) (uid : str)
| KAddPlan (s : str) | KAddPlanFile (s : str) | KAddLibrary (s : str) | KAddLibraryFile (s : str) | KUpdate (node : str)
| KUnknown | KHandle (n : Z) | KBool (b : Z) | KBools (l : list Z) | KInt (n : Z) | KInts (l : list Z)
| KReal (r : Z) | KReals (l : list Z) | KStr (s : str) | KStrs (l : list str)
| KPairB (name : str) (b : Z) | KPairI (name : str) (n : Z) | KPairR (name : str) (r : Z) | KPairS (name : str) (s : str).
(** PlexilMsgType, ipc-data-formats.h:282-360. *)
Definition typeCode (c : content) : Z :=
  match c with
  | KNotify => 1 | KCommand _ => 2 | KMessage _ => 3 | KLookup _ => 4 | KTelemetry _ => 5 | KReturn _ _ => 6
  | KAddPlan _ => 7 | KAddPlanFile _ => 8 | KAddLibrary _ => 9 | KAddLibraryFile _ => 10 | KUpdate _ => 11
  | KUnknown => 12 | KHandle _ => 13 | KBool _ => 14 | KBools _ => 15 | KInt _ => 16 | KInts _ => 17
  | KReal _ => 18 | KReals _ => 19 | KStr _ => 20 | KStrs _ => 21
  | KPairB _ _ => 22 | KPairI _ _ => 23 | KPairR _ _ => 24 | KPairS _ _ => 25
  end.
(** struct PlexilMsgBase, :47-53, with the data. *)
Record part : Type := mkPart { p_what : content; p_count : Z; p_serial : Z; p_uid : str }.
(** std::string::c_str(), read as a C string. *)
Fixpoint cstr (s : str) : str := match s with [] => [] | c :: r => if c =? 0 then [] else c :: cstr r end.
Definition u16 (z : Z) : Z := z mod 65536.
Definition u32 (z : Z) : Z := z mod 4294967296.
(** msgFormatForType, IpcFacade.cc:78-150; None is nullptr. *)
Definition format (c : content) : option str :=
  match c with
  | KNotify | KUnknown => Some (chars "PlexilMessageBase")
  | KAddPlan _ | KAddPlanFile _ | KAddLibrary _ | KAddLibraryFile _ | KCommand _ | KMessage _ | KLookup _ | KUpdate _ | KStr _ | KTelemetry _ =>
      Some (chars "PlexilStringValue")
  | KReturn _ _ => Some (chars "PlexilReturnValueMessage")
  | KBool _ => Some (chars "PlexilBooleanValue") | KInt _ => Some (chars "PlexilIntegerValue") | KReal _ => Some (chars "PlexilRealValue")
  | KBools _ => Some (chars "PlexilBooleanArray") | KInts _ => Some (chars "PlexilIntegerArray")
  | KReals _ => Some (chars "PlexilRealArray") | KStrs _ => Some (chars "PlexilStringArray")
  | KPairB _ _ => Some (chars "PlexilBooleanPair") | KPairI _ _ => Some (chars "PlexilIntegerPair")
  | KPairR _ _ => Some (chars "PlexilRealPair") | KPairS _ _ => Some (chars "PlexilStringPair")
  | KHandle _ => None
  end.
(** ALL_MSG_TYPE_NAMES, :653-669. *)
Definition allFormats : list str :=
  [chars "PlexilMessageBase"; chars "PlexilReturnValueMessage"; chars "PlexilBooleanValue"; chars "PlexilIntegerValue"; chars "PlexilRealValue";
   chars "PlexilStringValue"; chars "PlexilBooleanArray"; chars "PlexilIntegerArray"; chars "PlexilRealArray"; chars "PlexilStringArray";
   chars "PlexilBooleanPair"; chars "PlexilIntegerPair"; chars "PlexilRealPair"; chars "PlexilStringPair"].

(** ** Values *)
Definition allKnown {T} (a : arr T) : bool := forallb (fun b => b) (a_known a).
Inductive built : Type := Msg (c : content) | NullPtr | AssertFails.
Definition ofArray {T} (a : arr T) (c : list T -> content) : built := if allKnown a then Msg (c (a_cont a)) else AssertFails.
(** constructPlexilValueMsg, :159-309. *)
Definition constructPlexilValueMsg (v : val) : built :=
  match v with
  | VUnk _ => Msg KUnknown
  | VBool b => Msg (KBool (Z.b2z b)) | VInt n => Msg (KInt n) | VReal r => Msg (KReal r) | VStr s => Msg (KStr (cstr s))
  | VHandle n => Msg (KHandle (u16 n))
  | VBoolArr a => ofArray a (fun l => KBools (map Z.b2z l))
  | VIntArr a => ofArray a KInts
  | VRealArr a => ofArray a KReals
  | VStrArr a => ofArray a (fun l => KStrs (map cstr l))
  | VNodeState _ | VOutcome _ | VFailure _ => NullPtr
  end.
(** constructPlexilPairMsg, :311-366. *)
Definition constructPlexilPairMsg (x : str * val) : built :=
  let name := cstr (fst x) in
  match snd x with
  | VBool b => Msg (KPairB name (Z.b2z b)) | VInt n => Msg (KPairI name n) | VReal r => Msg (KPairR name r) | VStr s => Msg (KPairS name (cstr s))
  | _ => NullPtr
  end.
Definition knownArr {T} (l : list T) : arr T := {| a_known := map (fun _ => true) l; a_cont := l |}.
Definition toBool (z : Z) : bool := negb (z =? 0).
(** getPlexilMsgValue, :375-476. *)
Definition getPlexilMsgValue (c : content) : val :=
  match c with
  | KHandle n => VHandle n | KBool b => VBool (toBool b) | KInt n => VInt n | KReal r => VReal r | KStr s => VStr s
  | KBools l => VBoolArr (knownArr (map toBool l)) | KInts l => VIntArr (knownArr l) | KReals l => VRealArr (knownArr l) | KStrs l => VStrArr (knownArr l)
  | _ => VUnk UNKNOWN_TYPE
  end.

(** ** Sending *)
(** What was published, with the destination ("" is everybody); the channel is destId + msgName (formatMsgName, :58-70). *)
Record pub : Type := mkPub { d_dest : str; d_part : part }.
(** What the caller sees: a serial number, ERROR_SERIAL (UINT32_MAX, IpcFacade.hh:71-72), an IPC return code (0 is IPC_Error,
    1 is IPC_OK, third-party/ipc/src/ipc.h:152), or nothing: the program stops. *)
Definition ERROR_SERIAL : Z := 4294967295.
Inductive ending : Type := Gives (z : Z) | Dies.
Definition status : Type := option bool.   (* IPC_OK, IPC_Error; None: the program stops *)
(** IPC_publishData; without a name it is an error (third-party/ipc/src/marshall.c:314), but formatMsgName of a null name throws. *)
Definition publish (net : nat -> bool) (i : nat) (x : pub) : status :=
  match format (p_what (d_part x)) with
  | Some _ => Some (net i)
  | None => match d_dest x with [] => Some false | _ => None end
  end.
Fixpoint publishAll (net : nat -> bool) (i : nat) (l : list pub) : list pub * status :=
  match l with
  | [] => ([], Some true)
  | x :: r =>
      match publish net i x with
      | Some true => let '(o, s) := publishAll net (S i) r in (x :: o, s)
      | s => ([], s)
      end
  end.
(** The trailers: count is the index, the serial number is the leader's, :884-888, 982-984. *)
Fixpoint trailers (uid : str) (serial : Z) (i : Z) (l : list content) : list part :=
  match l with [] => [] | c :: r => {| p_what := c; p_count := u16 i; p_serial := serial; p_uid := cstr uid |} :: trailers uid serial (i + 1) r end.
Fixpoint buildAll (l : list built) : option (list content) :=
  match l with [] => Some [] | Msg c :: r => match buildAll r with Some cs => Some (c :: cs) | None => None end | _ :: _ => None end.
(** sendParameters, :877-959: all messages are built first. *)
Definition sendParameters (net : nat -> bool) (uid : str) (serial : Z) (dest : str) (args : list val) : list pub * status :=
  match buildAll (map constructPlexilValueMsg args) with
  | None => ([], None)
  | Some cs => publishAll net 1 (map (mkPub dest) (trailers uid serial 0 cs))
  end.
(** sendPairs, :977-1010: each pair is built when it is sent. *)
Fixpoint sendPairs (net : nat -> bool) (uid : str) (serial : Z) (i : nat) (l : list (str * val)) : list pub * status :=
  match l with
  | [] => ([], Some true)
  | x :: r =>
      match constructPlexilPairMsg x with
      | Msg c =>
          let p := mkPub [] {| p_what := c; p_count := u16 (Z.of_nat i); p_serial := serial; p_uid := cstr uid |} in
          match publish net (S i) p with
          | Some true => let '(o, s) := sendPairs net uid serial (S i) r in (p :: o, s)
          | s => ([], s)
          end
      | _ => ([], None)
      end
  end.
(** publishMessage :712-722; publishCommand, sendCommand :724-760; publishLookupNow, sendLookupNow :762-789;
    publishReturnValues :791-811; publishTelemetry :821-840; publishUpdate :842-859. *)
Inductive scall : Type :=
| SMessage (s : str) | SCommand (name dest : str) (args : list val) | SLookup (name dest : str) (args : list val)
| SReturn (request : Z) (uid : str) (v : val) | STelemetry (name : str) (vals : list val) | SUpdate (node : str) (pairs : list (str * val)).
Definition leaderOf (k : scall) : content :=
  match k with
  | SMessage s => KMessage (cstr s) | SCommand n _ _ => KCommand (cstr n) | SLookup n _ _ => KLookup (cstr n)
  | SReturn r u _ => KReturn r (cstr u) | STelemetry n _ => KTelemetry (cstr n) | SUpdate n _ => KUpdate (cstr n)
  end.
Definition leaderCount (k : scall) : Z :=
  match k with
  | SMessage _ => 0 | SCommand _ _ a | SLookup _ _ a | STelemetry _ a => u16 (Z.of_nat (length a))
  | SReturn _ _ _ => 1 | SUpdate _ l => u16 (Z.of_nat (length l))
  end.
Definition leaderDest (k : scall) : str := match k with SCommand _ d _ | SLookup _ d _ => d | SReturn _ u _ => u | _ => [] end.
Definition sendRest (net : nat -> bool) (uid : str) (serial : Z) (k : scall) : list pub * status :=
  match k with
  | SMessage _ => ([], Some true)
  | SCommand _ _ a | SLookup _ _ a | STelemetry _ a => sendParameters net uid serial [] a
  | SReturn _ u v => sendParameters net uid serial u [v]
  | SUpdate _ l => sendPairs net uid serial 0 l
  end.
(** The facade that sends: its name and the next serial number (getSerialNumber, :1015-1017). *)
Record facade : Type := mkFacade { f_uid : str; f_next : Z }.
Definition facade0 (uid : str) : facade := {| f_uid := uid; f_next := 1 |}.
Definition result (k : scall) (serial : Z) (s : status) : ending :=
  match s with
  | None => Dies
  | Some ok => match k with SMessage _ => Gives (if ok then 1 else 0) | _ => Gives (if ok then serial else ERROR_SERIAL) end
  end.
Definition send (f : facade) (net : nat -> bool) (k : scall) : list pub * ending * facade :=
  let serial := f_next f in
  let f' := {| f_uid := f_uid f; f_next := u32 (serial + 1) |} in
  let lead := mkPub (leaderDest k) {| p_what := leaderOf k; p_count := leaderCount k; p_serial := serial; p_uid := cstr (f_uid f) |} in
  match publish net 0 lead with
  | Some true => let '(o, s) := sendRest net (f_uid f) serial k in (lead :: o, result k serial s, f')
  | s => ([], result k serial s, f')
  end.
Fixpoint sendAll (f : facade) (l : list ((nat -> bool) * scall)) : list pub * list ending * facade :=
  match l with
  | [] => ([], [], f)
  | (net, k) :: r =>
      let '(o, e, f1) := send f net k in
      match e with
      | Dies => (o, [Dies], f1)
      | _ => let '(o2, es, f2) := sendAll f1 r in (o ++ o2, e :: es, f2)
      end
  end.

(** ** Receiving *)
(** subscribeDataCentral, :1408-1420: each format, alone and after the facade's own name. *)
Definition subscribed (uid : str) (channel : str) : bool :=
  existsb (fun f => if str_eq_dec channel f then true else if str_eq_dec channel (uid ++ f) then true else false) allFormats.
Definition hears (uid : str) (x : pub) : bool :=
  match format (p_what (d_part x)) with Some f => subscribed uid (cstr (d_dest x ++ f)) | None => false end.

Definition msgId : Type := str * Z.
Definition idOf (p : part) : msgId := (p_uid p, p_serial p).
Definition msgId_dec (a b : msgId) : {a = b} + {a <> b}.
Proof. decide equality; [apply Z.eq_dec|apply str_eq_dec]. Defined.
(** m_incompletes, m_listenersToAll, m_registeredListeners, IpcFacade.hh:325-357; a listener is a number. *)
Record recv : Type := mkRecv { r_uid : str; r_inc : list (msgId * list part); r_all : list nat; r_reg : list (Z * list nat) }.
Definition recv0 (uid : str) : recv := {| r_uid := uid; r_inc := []; r_all := []; r_reg := [] |}.
Fixpoint findInc (m : list (msgId * list part)) (k : msgId) : option (list part) :=
  match m with [] => None | (k', v) :: r => if msgId_dec k k' then Some v else findInc r k end.
Fixpoint eraseInc (m : list (msgId * list part)) (k : msgId) : list (msgId * list part) :=
  match m with [] => [] | (k', v) :: r => if msgId_dec k k' then r else (k', v) :: eraseInc r k end.
Fixpoint setInc (m : list (msgId * list part)) (k : msgId) (v : list part) : list (msgId * list part) :=
  match m with [] => [(k, v)] | (k', v') :: r => if msgId_dec k k' then (k', v) :: r else (k', v') :: setInc r k v end.
Fixpoint regsFor (m : list (Z * list nat)) (t : Z) : list nat :=
  match m with [] => [] | (t', l) :: r => if t =? t' then l else regsFor r t end.
Fixpoint addReg (m : list (Z * list nat)) (t : Z) (n : nat) : list (Z * list nat) :=
  match m with [] => [(t, [n])] | (t', l) :: r => if t =? t' then (t', l ++ [n]) :: r else (t', l) :: addReg r t n end.
(** deliverMessages, :1316-1345: calls of ReceiveMessage. *)
Definition delivery : Type := nat * list part.
Definition deliverMessages (r : recv) (ms : list part) : list delivery :=
  match ms with
  | [] => []
  | p :: _ => map (fun n => (n, ms)) (r_all r ++ regsFor (r_reg r) (typeCode (p_what p)))
  end.
Definition withInc (r : recv) (m : list (msgId * list part)) : recv := {| r_uid := r_uid r; r_inc := m; r_all := r_all r; r_reg := r_reg r |}.
(** cacheMessageLeader, :1255-1281; None: the assertion fails. *)
Definition cacheMessageLeader (r : recv) (p : part) : option (list delivery * recv) :=
  match findInc (r_inc r) (idOf p) with
  | Some _ => None
  | None => if p_count p =? 0 then Some (deliverMessages r [p], r) else Some ([], withInc r (setInc (r_inc r) (idOf p) [p]))
  end.
(** cacheMessageTrailer, :1287-1310. *)
Definition cacheMessageTrailer (r : recv) (p : part) : option (list delivery * recv) :=
  match findInc (r_inc r) (idOf p) with
  | None => Some ([], r)
  | Some ms =>
      let ms' := ms ++ [p] in
      match ms' with
      | [] => None
      | lead :: _ =>
          if p_count lead <? Z.of_nat (length ms') then Some (deliverMessages r ms', withInc r (eraseInc (r_inc r) (idOf p)))
          else Some ([], withInc r (setInc (r_inc r) (idOf p) ms'))
      end
  end.
(** handleMessage, :1155-1247. *)
Definition handleMessage (r : recv) (p : part) : option (list delivery * recv) :=
  match p_what p with
  | KCommand _ | KLookup _ => if p_count p =? 0 then Some (deliverMessages r [p], r) else cacheMessageLeader r p
  | KUpdate _ | KTelemetry _ => cacheMessageLeader r p
  | KReturn _ u => if str_eq_dec u (cstr (r_uid r)) then cacheMessageLeader r p else Some ([], r)
  | KMessage _ | KNotify | KAddPlan _ | KAddPlanFile _ | KAddLibrary _ | KAddLibraryFile _ => Some (deliverMessages r [p], r)
  | _ => cacheMessageTrailer r p
  end.
(** std::remove without erase: the elements kept are moved to the front, the rest of the array is as it was. *)
Definition stdRemove (x : nat) (l : list nat) : list nat :=
  let kept := filter (fun y => negb (Nat.eqb y x)) l in kept ++ skipn (length kept) l.
(** subscribeAll :619-627, subscribe :629-638, unsubscribe :641-651 (the loop variable is a copy of the map's pair),
    unsubscribeAllListeners :683-694. *)
Inductive event : Type := EPart (p : part) | ESubAll (n : nat) | ESub (n : nat) (t : Z) | EUnsub (n : nat) | EUnsubAll.
Definition rstep (r : recv) (e : event) : option (list delivery * recv) :=
  match e with
  | EPart p => handleMessage r p
  | ESubAll n => Some ([], {| r_uid := r_uid r; r_inc := r_inc r; r_all := r_all r ++ [n]; r_reg := r_reg r |})
  | ESub n t => Some ([], {| r_uid := r_uid r; r_inc := r_inc r; r_all := r_all r; r_reg := addReg (r_reg r) t n |})
  | EUnsub n => Some ([], {| r_uid := r_uid r; r_inc := r_inc r; r_all := stdRemove n (r_all r); r_reg := r_reg r |})
  | EUnsubAll => Some ([], {| r_uid := r_uid r; r_inc := r_inc r; r_all := []; r_reg := [] |})
  end.
Fixpoint rrun (r : recv) (l : list event) : option (list delivery * recv) :=
  match l with
  | [] => Some ([], r)
  | e :: t =>
      match rstep r e with
      | None => None
      | Some (o, r1) => match rrun r1 t with None => None | Some (o2, r2) => Some (o ++ o2, r2) end
      end
  end.
