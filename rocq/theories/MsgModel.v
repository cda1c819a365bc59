(** Model of messaging: src/intfc/StateCache.cc 132-259 and src/intfc/Message.hh, over the state
    cache of CacheModel.v, and of src/app-framework/MessageAdapter.cc.

    Simplifications: a message's parameter count and parameter indices are taken without the
    (Integer) casts of StateCache.cc 159-165, so a message has less than 2^31 parameters
    (hypothesis of the theorems); ownership of Message objects is not modelled; warnings are
    not modelled.  None means a null or dangling pointer is used, as in CacheModel.v. *)
From Coq Require Import String.
From Verif Require Import ValueModel RealModel CacheModel.
Open Scope Z_scope.

(** Characters of a C++ string literal. *)
Definition lit (s : string) : str := map (fun c => Z.of_nat (Ascii.nat_of_ascii c)) (list_ascii_of_string s).

(** Message, Message.hh 40-60: the message (name and parameters), sender, arrival time. *)
Record message := mkMsg { m_body : state; m_sender : str; m_time : Z }.

(** The three fixed states, StateCache.cc 268-270. *)
Definition sHave : state := mkState (lit "HaveMessage") [].
Definition sPeek : state := mkState (lit "PeekAtMessage") [].
Definition sPeekSender : state := mkState (lit "PeekAtMessageSender") [].
(** The states of one handle, StateCache.cc 157-175, 185, 203-210. *)
Definition sText (h : str) : state := mkState (lit "MessageText") [VStr h].
Definition sCount (h : str) : state := mkState (lit "MessageParameterCount") [VStr h].
Definition sParam (h : str) (i : Z) : state := mkState (lit "MessageParameter") [VStr h; VInt i].
Definition sSender (h : str) : state := mkState (lit "MessageSender") [VStr h].
Definition sArrived (h : str) : state := mkState (lit "MessageArrived") [VStr h].

(** messageReceived, StateCache.cc 136-141; messageQueueEmpty, 145-150. *)
Definition receivedOps (m : message) : list op :=
  [OUpd sHave (UVal (VBool true)); OUpd sPeek (UVal (VStr (s_name (m_body m)))); OUpd sPeekSender (UVal (VStr (m_sender m)))].
Definition emptyOps : list op := [OUpd sHave (UVal (VBool false)); OUpd sPeek UUnk; OUpd sPeekSender UUnk].

(** The loop of assignMessageHandle, StateCache.cc 162-168. *)
Fixpoint paramOps (h : str) (i : Z) (ps : list val) : list op :=
  match ps with [] => [] | v :: r => OUpd (sParam h i) (UVal v) :: paramOps h (i + 1) r end.
(** assignMessageHandle, StateCache.cc 155-175. *)
Definition assignOps (m : message) (h : str) : list op :=
  OUpd (sText h) (UVal (VStr (s_name (m_body m)))) ::
  OUpd (sCount h) (UVal (VInt (Z.of_nat (length (s_params (m_body m)))))) ::
  paramOps h 0 (s_params (m_body m)) ++
  [OUpd (sSender h) (UVal (VStr (m_sender m))); OUpd (sArrived h) (UVal (VReal (m_time m)))].

(** The loop of releaseMessageHandle, StateCache.cc 203-207. *)
Fixpoint unparamOps (h : str) (i : Z) (n : nat) : list op :=
  match n with O => [] | S k => ODel (sParam h i) :: unparamOps h (i + 1) k end.
(** releaseMessageHandle, StateCache.cc 180-211; the calls it makes, None: null pointer. *)
Definition releaseOps (w : world) (h : str) : option (list op) :=
  match findKey (sCount h) (w_map w) with
  | None => Some []
  | Some e =>
      match e_val (w_ent w e) with
      | None => None
      | Some c =>
          match cv_v c with
          | VInt n => match e_lk (w_ent w e) with
                      | _ :: _ => Some []
                      | [] => Some (ODel (sCount h) :: unparamOps h 0 (Z.to_nat n) ++ [ODel (sText h); ODel (sSender h); ODel (sArrived h)])
                      end
          | _ => Some []   (* getValue fails: StateCache.cc 190-193 *)
          end
      end
  end.

(** Operations on the cache: those of lookups and other interfaces, and the four message calls. *)
Inductive mop :=
| MCache (o : op)
| MReceived (m : message)
| MEmpty
| MAssign (m : message) (h : str)
| MRelease (h : str).
Definition mops (x : mop) (w : world) : option (list op) :=
  match x with
  | MCache o => Some [o]
  | MReceived m => Some (receivedOps m)
  | MEmpty => Some emptyOps
  | MAssign m h => Some (assignOps m h)
  | MRelease h => releaseOps w h
  end.

(** ** MessageAdapter, MessageAdapter.cc.  The adapter's queue is a list of messages; each entry
    point yields the new queue and the calls it makes on the AdapterExecInterface, in order. *)
Inductive icall :=
| IReceived (m : message)                    (* notifyMessageReceived *)
| IEmpty                                     (* notifyMessageQueueEmpty *)
| IAccepted (m : message) (h : str)          (* notifyMessageAccepted *)
| IReleased (h : str)                        (* notifyMessageHandleReleased *)
| IReturn (v : val)                          (* handleCommandReturn *)
| IAck (ok : bool)                           (* handleCommandAck COMMAND_SUCCESS / COMMAND_FAILED *)
| IEvent.                                    (* notifyOfExternalEvent *)
(** enqueueMessage, MessageAdapter.cc 294-307. *)
Definition adEnqueue (q : list message) (m : message) : list message * list icall :=
  (q ++ [m], match q with [] => [IReceived m; IEvent] | _ :: _ => [] end).
(** acceptMessage, MessageAdapter.cc 124-147. *)
Definition adAccept (q : list message) : list message * list icall :=
  match q with
  | [] => ([], [IReturn (VUnk UNKNOWN_TYPE); IAck true; IEvent])
  | m :: r => (r, [IAccepted m []; IReturn (VStr [])]
                  ++ (match r with [] => [IEmpty] | m' :: _ => [IReceived m'] end) ++ [IAck true; IEvent])
  end.
(** releaseMessageHandleHandler with releaseMessageHandle, MessageAdapter.cc 152-157, 196-221,
    for a command with these parameters (a missing parameter reads as the untyped unknown,
    State.cc 160-175); [toStr]: Value::valueToString. *)
Definition adRelease (toStr : val -> str) (params : list val) : list icall :=
  let v := nth 0 params (VUnk UNKNOWN_TYPE) in
  (match params with [] => [IAck false; IEvent] | _ :: _ => [] end)
  ++ (if vtype v =? STRING_TYPE then [] else [IAck false; IEvent])
  ++ (if vknown v then [] else [IAck true; IEvent])
  ++ [IReleased (toStr v); IAck true; IEvent].
(** What the interface manager puts in the input queue for a call, InterfaceManager.cc 282-341:
    empty handles are refused with a warning. *)
Definition queued (c : icall) : list mop :=
  match c with
  | IReceived m => [MReceived m]
  | IEmpty => [MEmpty]
  | IAccepted m h => match h with [] => [] | _ :: _ => [MAssign m h] end
  | IReleased h => match h with [] => [] | _ :: _ => [MRelease h] end
  | _ => []
  end.
