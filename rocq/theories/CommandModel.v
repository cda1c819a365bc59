(** Model of commands: src/intfc/CommandImpl.cc, src/intfc/CommandHandleVariable.cc. *)
From Coq Require Import List ZArith Bool Lia.
From Verif Require Import VarModel.
Import ListNotations.

(** CommandHandle.hh 38-52: NO_COMMAND_HANDLE = 48, COMMAND_DENIED = 53, COMMAND_HANDLE_MAX = 58. *)
Definition NO_HANDLE : Z := 48.
Definition H_DENIED : Z := 53.
Definition HANDLE_MAX : Z := 58.

Section Cmd.
(** [N]: strings; [V]: values (including unknown); [R]: resource values; [T]: values
    of the return variable, compared with [teq]. *)
Context {N V R T : Type} (teq : T -> T -> bool).

(** What does not change at run time: for each of name, arguments and resource
    list its value if all the expressions are constants (isConstant,
    CommandImpl.cc 309-356), else None. *)
Record cconf := { cf_name : option N; cf_args : option (list V); cf_res : option (list R) }.

(** What the (non-constant) expressions evaluate to at some moment; None for the
    name: unknown; None for the resources: one of them is unknown. *)
Record cenv := { en_name : option N; en_args : list V; en_res : option (list R) }.

(** CommandImpl.hh 357-436.  [c_ackCnt]: activation count of m_ack;
    [c_dest]: the return variable, if any; [c_checked]: m_checkedConstant. *)
Record cmd := {
  c_active : bool; c_handle : Z; c_ackCnt : nat; c_abort : sbv; c_dest : option (uvar T);
  c_checked : bool;
  c_nameFixed : bool; c_name : option N;
  c_argsFixed : bool; c_args : list V;
  c_resFixed : bool; c_res : list R }.

(** CommandImpl.cc 203-226. *)
Definition newCmd (dest : option (uvar T)) : cmd :=
  {| c_active := false; c_handle := NO_HANDLE; c_ackCnt := 0; c_abort := {| sb_count := 0; sb_val := false |};
     c_dest := dest; c_checked := false; c_nameFixed := false; c_name := None;
     c_argsFixed := false; c_args := []; c_resFixed := false; c_res := [] |}.

Definition isSome {A} (o : option A) : bool := match o with Some _ => true | None => false end.

(** CommandImpl.cc 358-369 fixCommandName. *)
Definition fixName (f : cconf) (e : cenv) (c : cmd) : cmd :=
  match (match cf_name f with Some n => Some n | None => en_name e end) with
  | Some n => {| c_active := c_active c; c_handle := c_handle c; c_ackCnt := c_ackCnt c; c_abort := c_abort c;
                 c_dest := c_dest c; c_checked := c_checked c; c_nameFixed := true; c_name := Some n;
                 c_argsFixed := c_argsFixed c; c_args := c_args c; c_resFixed := c_resFixed c; c_res := c_res c |}
  | None => c
  end.

(** CommandImpl.cc 373-380 fixCommandArgs. *)
Definition fixArgs (f : cconf) (e : cenv) (c : cmd) : cmd :=
  let a := match cf_args f with Some a => a | None => en_args e end in
  {| c_active := c_active c; c_handle := c_handle c; c_ackCnt := c_ackCnt c; c_abort := c_abort c;
     c_dest := c_dest c; c_checked := c_checked c; c_nameFixed := c_nameFixed c; c_name := c_name c;
     c_argsFixed := true; c_args := a; c_resFixed := c_resFixed c; c_res := c_res c |}.

(** CommandImpl.cc 382-413 fixResourceValues; an unknown value raises a PlanError. *)
Definition fixRes (f : cconf) (e : cenv) (c : cmd) : res cmd :=
  match (match cf_res f with Some r => Some r | None => en_res e end) with
  | Some r => Ok {| c_active := c_active c; c_handle := c_handle c; c_ackCnt := c_ackCnt c; c_abort := c_abort c;
     c_dest := c_dest c; c_checked := c_checked c; c_nameFixed := c_nameFixed c; c_name := c_name c;
     c_argsFixed := c_argsFixed c; c_args := c_args c; c_resFixed := true; c_res := r |}
  | None => PlanErr
  end.

Definition setChecked (c : cmd) : cmd :=
  {| c_active := c_active c; c_handle := c_handle c; c_ackCnt := c_ackCnt c; c_abort := c_abort c;
     c_dest := c_dest c; c_checked := true; c_nameFixed := c_nameFixed c; c_name := c_name c;
     c_argsFixed := c_argsFixed c; c_args := c_args c; c_resFixed := c_resFixed c; c_res := c_res c |}.

(** CommandImpl.cc 309-356 checkConstant. *)
Definition checkConstant (f : cconf) (e : cenv) (c : cmd) : res cmd :=
  let c1 := if isSome (cf_name f) then fixName f e c else c in
  let c2 := if isSome (cf_args f) then fixArgs f e c1 else c1 in
  bind (if isSome (cf_res f) then fixRes f e c2 else Ok c2) (fun c3 => Ok (setChecked c3)).

(** CommandImpl.cc 415-425 fixValues; [Crash]: check_error_1(m_active) fails. *)
Definition cmdFix (f : cconf) (e : cenv) (c : cmd) : res cmd :=
  if c_active c then
    let c1 := if c_nameFixed c then c else fixName f e c in
    let c2 := if c_argsFixed c1 then c1 else fixArgs f e c1 in
    if c_resFixed c2 then Ok c2 else fixRes f e c2
  else Crash.

(** CommandImpl.cc 427-465 activate.  The handle is reset and m_ack (Notifier,
    no handleActivate) activated; neither publishes a change.  [iv]: initial
    value of the return variable, as in [uvActivate]. *)
Definition cmdActivate (f : cconf) (e : cenv) (iv : option T) (c : cmd) : res cmd :=
  if c_active c then Crash
  else
    let c0 := {| c_active := c_active c; c_handle := NO_HANDLE; c_ackCnt := S (c_ackCnt c);
                 c_abort := sbActivate (c_abort c); c_dest := c_dest c; c_checked := c_checked c;
                 c_nameFixed := c_nameFixed c; c_name := c_name c; c_argsFixed := c_argsFixed c;
                 c_args := c_args c; c_resFixed := c_resFixed c; c_res := c_res c |} in
    bind (if c_checked c0 then Ok c0 else checkConstant f e c0) (fun c1 =>
    Ok {| c_active := true; c_handle := c_handle c1; c_ackCnt := c_ackCnt c1; c_abort := c_abort c1;
          c_dest := match c_dest c1 with Some v => Some (fst (uvActivate iv v)) | None => None end;
          c_checked := c_checked c1;
          c_nameFixed := isSome (cf_name f) && c_nameFixed c1; c_name := c_name c1;
          c_argsFixed := isSome (cf_args f) && c_argsFixed c1; c_args := c_args c1;
          c_resFixed := isSome (cf_res f) && c_resFixed c1; c_res := c_res c1 |}).

Definition setHandle (h : Z) (c : cmd) : cmd :=
  {| c_active := c_active c; c_handle := h; c_ackCnt := c_ackCnt c; c_abort := c_abort c;
     c_dest := c_dest c; c_checked := c_checked c; c_nameFixed := c_nameFixed c; c_name := c_name c;
     c_argsFixed := c_argsFixed c; c_args := c_args c; c_resFixed := c_resFixed c; c_res := c_res c |}.
Definition setAbort (b : sbv) (c : cmd) : cmd :=
  {| c_active := c_active c; c_handle := c_handle c; c_ackCnt := c_ackCnt c; c_abort := b;
     c_dest := c_dest c; c_checked := c_checked c; c_nameFixed := c_nameFixed c; c_name := c_name c;
     c_argsFixed := c_argsFixed c; c_args := c_args c; c_resFixed := c_resFixed c; c_res := c_res c |}.
Definition setDest (d : option (uvar T)) (c : cmd) : cmd :=
  {| c_active := c_active c; c_handle := c_handle c; c_ackCnt := c_ackCnt c; c_abort := c_abort c;
     c_dest := d; c_checked := c_checked c; c_nameFixed := c_nameFixed c; c_name := c_name c;
     c_argsFixed := c_argsFixed c; c_args := c_args c; c_resFixed := c_resFixed c; c_res := c_res c |}.
Definition setAckCnt (n : nat) (c : cmd) : cmd :=
  {| c_active := c_active c; c_handle := c_handle c; c_ackCnt := n; c_abort := c_abort c;
     c_dest := c_dest c; c_checked := c_checked c; c_nameFixed := c_nameFixed c; c_name := c_name c;
     c_argsFixed := c_argsFixed c; c_args := c_args c; c_resFixed := c_resFixed c; c_res := c_res c |}.

(** CommandImpl.cc 467-475 setCommandHandle; an invalid handle raises an
    InterfaceError ([PlanErr] here) and changes nothing.  The flag: listeners of
    the handle were notified (m_ack.publishChange, on an active m_ack). *)
Definition cmdSetHandle (h : Z) (c : cmd) : res (cmd * bool) :=
  if c_active c
  then if (Z.ltb NO_HANDLE h && Z.ltb h HANDLE_MAX)%bool
       then Ok (setHandle h c, negb (Nat.eqb (c_ackCnt c) 0))
       else PlanErr
  else Ok (c, false).

(** CommandImpl.cc 477-482 returnValue. *)
Definition cmdReturn (x : option T) (c : cmd) : cmd * bool :=
  if c_active c
  then match c_dest c with
       | Some v => let (v', p) := uvSet teq x v in (setDest (Some v') c, p)
       | None => (c, false)
       end
  else (c, false).

(** CommandImpl.cc 484-490 acknowledgeAbort. *)
Definition cmdAckAbort (b : bool) (c : cmd) : cmd :=
  if c_active c then setAbort (sbSet b (c_abort c)) c else c.

Definition sbDeact (b : sbv) : res sbv :=
  match sb_count b with 0 => Crash | S n => Ok {| sb_count := n; sb_val := sb_val b |} end.

(** CommandImpl.cc 492-522 deactivate; the flag: the arbiter was told to release
    this command's resources. *)
Definition cmdDeactivate (f : cconf) (c : cmd) : res (cmd * bool) :=
  if c_active c then
    bind (sbDeact (c_abort c)) (fun ab =>
    match c_ackCnt c with
    | 0 => Crash
    | S n =>
      bind (match c_dest c with
            | Some v => bind (uvDeactivate v) (fun p => Ok (Some (fst p)))
            | None => Ok None end) (fun d =>
      Ok ({| c_active := false; c_handle := c_handle c; c_ackCnt := n; c_abort := ab; c_dest := d;
             c_checked := c_checked c;
             c_nameFixed := isSome (cf_name f) && c_nameFixed c; c_name := c_name c;
             c_argsFixed := isSome (cf_args f) && c_argsFixed c; c_args := c_args c;
             c_resFixed := isSome (cf_res f) && c_resFixed c; c_res := c_res c |},
          negb (Z.eqb (c_handle c) H_DENIED)))
    end)
  else Crash.

(** CommandImpl.cc 246-251 getCommand: name and arguments, behind an assertion. *)
Definition getCommand (c : cmd) : res (option N * list V) :=
  if c_nameFixed c && c_argsFixed c then Ok (c_name c, c_args c) else Crash.
(** CommandImpl.cc 273-277. *)
Definition getResources (c : cmd) : res (list R) := if c_resFixed c then Ok (c_res c) else Crash.

(** CommandHandleVariable.cc 75-84 getValue, as read by plan expressions. *)
Definition ackRead (c : cmd) : option Z :=
  if Nat.eqb (c_ackCnt c) 0 then None
  else if Z.eqb (c_handle c) NO_HANDLE then None else Some (c_handle c).
(** CommandHandleVariable.cc 70-73 isKnown. *)
Definition ackKnown (c : cmd) : bool := negb (Z.eqb (c_handle c) NO_HANDLE).
(** SimpleBooleanVariable.cc 90-94, read as the abort-complete condition. *)
Definition abortRead (c : cmd) : bool := sb_val (c_abort c).
Definition destRead (c : cmd) : option (option T) :=
  match c_dest c with Some v => Some (uvRead v) | None => None end.

(** Events.  The last four come from elsewhere in the plan: other nodes'
    conditions activating the handle variable, the node's own abort-complete
    condition. *)
Inductive cop :=
| CAct (e : cenv) (iv : option T) | CFix (e : cenv) | CHandle (h : Z) | CReturn (x : option T)
| CAckAbort (b : bool) | CDeact
| CDest (o : vop T) | CUseAck | CUnuseAck | CUseAbort | CUnuseAbort.

(** The flag: the listeners of the command handle were notified. *)
Definition cstep (f : cconf) (o : cop) (c : cmd) : res (cmd * bool) :=
  let quiet (r : res cmd) : res (cmd * bool) := bind r (fun c' => Ok (c', false)) in
  match o with
  | CAct e iv => quiet (cmdActivate f e iv c)
  | CFix e => quiet (cmdFix f e c)
  | CHandle h => cmdSetHandle h c
  | CReturn x => quiet (Ok (fst (cmdReturn x c)))
  | CAckAbort b => quiet (Ok (cmdAckAbort b c))
  | CDeact => quiet (bind (cmdDeactivate f c) (fun p => Ok (fst p)))
  | CDest o => quiet (match c_dest c with
               | Some v => bind (uvStep teq o v) (fun p => Ok (setDest (Some (fst p)) c))
               | None => Ok c end)
  | CUseAck => quiet (Ok (setAckCnt (S (c_ackCnt c)) c))
  | CUnuseAck => quiet (match c_ackCnt c with 0 => Crash | S n => Ok (setAckCnt n c) end)
  | CUseAbort => quiet (Ok (setAbort (sbActivate (c_abort c)) c))
  | CUnuseAbort => quiet (bind (sbDeact (c_abort c)) (fun b => Ok (setAbort b c)))
  end.

(** Newest event first. *)
Fixpoint crun (f : cconf) (h : list cop) (c : cmd) : res cmd :=
  match h with
  | [] => Ok c
  | o :: r => bind (crun f r c) (fun c' => bind (cstep f o c') (fun p => Ok (fst p)))
  end.
End Cmd.
Arguments cconf : clear implicits.
Arguments cenv : clear implicits.
Arguments cmd : clear implicits.
Arguments cop : clear implicits.
