(** Specification of messaging (C47), in terms of the message calls made, as the plan writer
    knows them from src/app-framework/Messaging.md. *)
From Verif Require Import ValueModel RealModel CacheModel CacheSpec OrderProps MsgModel.
Open Scope Z_scope.

(** What the plan may know about the inbox: nothing heard yet, empty, or the message at the head. *)
Inductive inbox := Unheard | NoMail | Mail (m : message).
Definition inboxOf (ms : list mop) : inbox :=
  fold_left (fun acc x => match x with MReceived m => Mail m | MEmpty => NoMail | _ => acc end) ms Unheard.
(** The message held under handle h. *)
Definition str_dec : forall a b : str, {a = b} + {a <> b} := list_eq_dec Z.eq_dec.
Definition heldBy (ms : list mop) (h : str) : option message :=
  fold_left (fun acc x => match x with
                          | MAssign m k => if str_dec k h then Some m else acc
                          | MRelease k => if str_dec k h then None else acc
                          | _ => acc end) ms None.

(** What a lookup should read. *)
Definition unknown (v : val) : Prop := vknown v = false.
Definition haveIs (b : inbox) (v : val) : Prop :=
  match b with Unheard => unknown v | NoMail => v = VBool false | Mail _ => v = VBool true end.
Definition peekIs (b : inbox) (v : val) : Prop := match b with Mail m => v = VStr (s_name (m_body m)) | _ => unknown v end.
Definition peekSenderIs (b : inbox) (v : val) : Prop := match b with Mail m => v = VStr (m_sender m) | _ => unknown v end.
Definition textIs (m : option message) (v : val) : Prop := match m with Some m => v = VStr (s_name (m_body m)) | None => unknown v end.
Definition senderIs (m : option message) (v : val) : Prop := match m with Some m => v = VStr (m_sender m) | None => unknown v end.
Definition countIs (m : option message) (v : val) : Prop :=
  match m with Some m => v = VInt (Z.of_nat (length (s_params (m_body m)))) | None => unknown v end.
(** Reals up to the sign of zero. *)
Definition arrivedIs (m : option message) (v : val) : Prop := match m with Some m => vsim v (VReal (m_time m)) | None => unknown v end.
Definition paramIs (m : option message) (i : Z) (v : val) : Prop :=
  match m with
  | Some m => match (if i <? 0 then None else nth_error (s_params (m_body m)) (Z.to_nat i)) with
              | Some p => if vknown p then vsim v p else unknown v
              | None => unknown v
              end
  | None => unknown v
  end.

(** The eight names reserved for messages. *)
Definition msgNames : list str := map s_name [sHave; sPeek; sPeekSender; sText []; sCount []; sParam [] 0; sSender []; sArrived []].
Definition isMsg (s : state) : Prop := In (s_name s) msgNames.
(** A state of handle h: one of the five names with h as first parameter. *)
Definition about (h : str) (s : state) : Prop :=
  In (s_name s) (map s_name [sText []; sCount []; sParam [] 0; sSender []; sArrived []]) /\ exists r, s_params s = VStr h :: r.

(** Proper use, after the calls ms (which led to the cache operations os):
    - nobody but the messaging calls supplies values for the reserved names;
    - a handle is not given to a second message while it is held;
    - only held handles are released, and only when no active lookup uses them. *)
Definition proper (ps : nat -> lkspec) (ms : list mop) (os : list op) (x : mop) : Prop :=
  match x with
  | MCache (OUpd s _) => ~ isMsg s
  | MCache (ODel s) => ~ isMsg s
  | MCache (OAct l ans) => forall s, stateOf ps os l = Some s -> isMsg s -> ans = []
  | MCache (OEnv l (Some s) ans) => isMsg s -> ans = []
  | MCache _ => True
  | MReceived _ | MEmpty => True
  | MAssign m h => heldBy ms h = None
  | MRelease h => heldBy ms h <> None /\
                  forall l s, 0 < activeOf os l -> stateOf ps os l = Some s -> about h s -> False
  end.

(** Histories: message calls ms, the cache operations os they amount to, the resulting world. *)
Inductive mhistory (ps : nat -> lkspec) : list mop -> list op -> world -> Prop :=
| mh_nil : (forall l, okSpec (ps l)) -> mhistory ps [] [] (init ps)
| mh_snoc ms os w x d w' : mhistory ps ms os w -> proper ps ms os x ->
    match x with MCache o => okOp o | _ => True end ->
    mops x w = Some d -> run d w = Some w' -> mhistory ps (ms ++ [x]) (os ++ d) w'.
