(** The executive: candidate / pending / state change / finished queues,
    mutex and variable reservation, node transitions with their notifications,
    and the quiescence loop.

    Models /repo/src/exec/PlexilExec.cc, the exec-facing part of NodeImpl.cc,
    ListNode.cc, AssignmentNode.cc, CommandNode.cc, UpdateNode.cc and
    /repo/src/expr/Reservable.cc.

    Simplifications, valid for the whole file:
    - Node pointers are natural numbers; the plan's shape is static.
    - The intrusive queues are lists (LinkedQueue.v relates the two).
    - Everything a condition can read outside the nodes is an arbitrary "world"
      [W]; condition values are an arbitrary function of world and nodes.
    - Which nodes an expression change notifies is not computed: every place
      where expressions are (de)activated or published takes an explicit list of
      notified nodes.  Theorems quantify over all such lists.
    - errorMsg / checkError / checkPlanError append to [e_errs] and execution
      continues as written after the macro (debug builds may abort instead). *)
From Verif Require Export NodeSpec.

(** exec/QueueStatus.hh, enum QueueStatus. *)
Inductive qstatus : Type :=
| QNone | QCheck | QPending | QPendingCheck | QPendingTry | QPendingTryCheck
| QTransition | QTransitionCheck | QDelete.

(** value/CommandHandle.hh, enum CommandHandleValue. *)
Inductive chandle : Type :=
| NO_COMMAND_HANDLE | COMMAND_SENT_TO_SYSTEM | COMMAND_ACCEPTED | COMMAND_RCVD_BY_SYSTEM
| COMMAND_FAILED | COMMAND_DENIED | COMMAND_SUCCESS | COMMAND_ABORTED
| COMMAND_ABORT_FAILED | COMMAND_INTERFACE_ERROR.

(** Things a node can hold: mutexes (exec/Mutex.hh) and assignable variables
    (expr/Variable.hh), both Reservable. *)
Inductive res : Type := RMutex (m : nat) | RVar (v : nat).
Definition res_eqb (a b : res) : bool :=
  match a, b with
  | RMutex x, RMutex y => Nat.eqb x y
  | RVar x, RVar y => Nat.eqb x y
  | _, _ => false
  end.

(** User-specifiable conditions, NodeImpl.hh ConditionIndex skipIdx..repeatIdx. *)
Inductive ucond : Type := USkip | UStart | UPre | UExit | UInv | UEnd | UPost | URepeat.

(** Mutable part of a node: core members, m_queueStatus, and the acknowledgement
    variables of its Assignment / CommandImpl / UpdateImpl. *)
Record dnode : Type := mkD {
  d_core : ncore; d_qs : qstatus; d_ack : bool; d_abort : bool; d_handle : chandle }.

(** What expressions can read of a node: state, outcome, failure type and
    command handle variables (exec/NodeVariables.hh, CommandHandleVariable in
    CommandImpl.hh).  Timepoints and local variables are part of the world. *)
Record nview : Type := mkView {
  v_state : nstate; v_out : outcome; v_fail : failure; v_handle : chandle }.
Definition view (d : dnode) : nview :=
  mkView (k_state (d_core d)) (k_out (d_core d)) (k_fail (d_core d)) (d_handle d).

(** A plan set: the static structure of every node the exec may ever run.
    [p_anc n] is the chain of ancestors, parent first. *)
Record plan (W : Type) : Type := mkPlan {
  p_type : nat -> ntype;
  p_anc : nat -> list nat;
  p_kids : nat -> list nat;
  p_prio : nat -> Z;
  p_mutex : nat -> list nat;
  p_var : nat -> nat;
  p_has : nat -> ucond -> bool;
  p_cond : W -> (nat -> nview) -> nat -> ucond -> tri;
  p_effect : W -> nat -> nstate -> nstate -> W;
  p_assign : W -> nat -> W;
  p_retract : W -> nat -> W }.
Arguments p_type {W}. Arguments p_anc {W}. Arguments p_kids {W}. Arguments p_prio {W}.
Arguments p_mutex {W}. Arguments p_var {W}. Arguments p_has {W}. Arguments p_cond {W}.
Arguments p_effect {W}. Arguments p_assign {W}. Arguments p_retract {W}.

(** Observable events. *)
Inductive event : Type :=
| EvTrans (n : nat) (from to : nstate)
| EvAssign (n : nat) | EvRetract (n : nat)
| EvCommand (n : nat) | EvAbort (n : nat) | EvUpdate (n : nat)
| EvDelete (n : nat).

(** Calls of errorMsg / checkError / checkPlanError. *)
Inductive err : Type :=
| ENotifyDeleted (n : nat)      (* NodeImpl.cc:613 *)
| ENotifyInvalid (n : nat)      (* NodeImpl.cc:619 *)
| EAddTransition (n : nat)      (* PlexilExec.cc:702-731 *)
| EBadPending (n : nat)         (* PlexilExec.cc:535 *)
| EFinishedBusy (n : nat)       (* PlexilExec.cc:792 *)
| EBadTransition (n : nat)      (* transitionFrom*, invalid next state *)
| EAncestorHolds (n : nat)      (* NodeImpl.cc:653 *)
| EFuel.                        (* model only: loop bound exhausted *)

Record reservable : Type := mkRes { r_holder : option nat; r_waiters : list nat }.

(** PlexilExec members (PlexilExec.cc:840-905), node members, resources. *)
Record est (W : Type) : Type := mkE {
  e_world : W;
  e_nodes : nat -> dnode;
  e_res : res -> reservable;
  e_cand : list nat;   (* m_candidateQueue *)
  e_pend : list nat;   (* m_pendingQueue *)
  e_chg : list nat;    (* m_stateChangeQueue *)
  e_fin : list nat;    (* m_finishedRootNodes *)
  e_asg : list nat;    (* m_assignmentsToExecute *)
  e_ret : list nat;    (* m_assignmentsToRetract *)
  e_cmd : list nat;    (* m_commandsToExecute *)
  e_abt : list nat;    (* m_commandsToAbort *)
  e_upd : list nat;    (* m_updatesToExecute *)
  e_plans : list nat;  (* m_plan *)
  e_deleted : bool;    (* m_finishedRootNodesDeleted *)
  e_trace : list event;(* newest first *)
  e_errs : list err }.
Arguments mkE {W}.
Arguments e_world {W}. Arguments e_nodes {W}. Arguments e_res {W}. Arguments e_cand {W}.
Arguments e_pend {W}. Arguments e_chg {W}. Arguments e_fin {W}. Arguments e_asg {W}.
Arguments e_ret {W}. Arguments e_cmd {W}. Arguments e_abt {W}. Arguments e_upd {W}.
Arguments e_plans {W}. Arguments e_deleted {W}. Arguments e_trace {W}. Arguments e_errs {W}.

Definition upd {B} (f : nat -> B) (n : nat) (v : B) : nat -> B :=
  fun m => if Nat.eqb m n then v else f m.
Definition updr {B} (f : res -> B) (r : res) (v : B) : res -> B :=
  fun m => if res_eqb m r then v else f m.

Definition memb (n : nat) (l : list nat) : bool := existsb (Nat.eqb n) l.
(** std::find + erase: first occurrence only (Reservable.cc:112). *)
Fixpoint rem1 (n : nat) (l : list nat) : list nat :=
  match l with [] => [] | x :: l' => if Nat.eqb n x then l' else x :: rem1 n l' end.

(** Fresh node: constructors in NodeImpl.cc:145-177, SimpleBooleanVariable,
    CommandImpl.cc. *)
Definition dnode0 : dnode := mkD core0 QNone false false NO_COMMAND_HANDLE.

(** BooleanOr / BooleanAnd with two operands, BooleanOperators.cc:78-98, 144-165. *)
Definition kor (a b : tri) : tri :=
  match a with
  | Some true => Some true
  | Some false => b
  | None => match b with Some true => Some true | _ => None end
  end.
Definition kand (a b : tri) : tri :=
  match a with
  | Some false => Some false
  | Some true => b
  | None => match b with Some false => Some false | _ => None end
  end.

(** ListNode.cc:236-312: own condition combined with the inherited one, either
    of which may be absent. *)
Definition combine (op : tri -> tri -> tri) (own inh : cond) : cond :=
  match own, inh with
  | Some a, Some b => Some (op a b)
  | Some a, None => Some a
  | None, r => r
  end.

Section Exec.
Context {W : Type}.
Implicit Types (P : plan W) (st : est W) (n : nat).

Definition e0 (w : W) : est W :=
  mkE w (fun _ => dnode0) (fun _ => mkRes None []) [] [] [] [] [] [] [] [] [] [] false [] [].

Definition set_nodes st f : est W :=
  mkE (e_world st) f (e_res st) (e_cand st) (e_pend st) (e_chg st) (e_fin st) (e_asg st)
      (e_ret st) (e_cmd st) (e_abt st) (e_upd st) (e_plans st) (e_deleted st) (e_trace st) (e_errs st).
Definition set_world st w : est W :=
  mkE w (e_nodes st) (e_res st) (e_cand st) (e_pend st) (e_chg st) (e_fin st) (e_asg st)
      (e_ret st) (e_cmd st) (e_abt st) (e_upd st) (e_plans st) (e_deleted st) (e_trace st) (e_errs st).
Definition set_res st r : est W :=
  mkE (e_world st) (e_nodes st) r (e_cand st) (e_pend st) (e_chg st) (e_fin st) (e_asg st)
      (e_ret st) (e_cmd st) (e_abt st) (e_upd st) (e_plans st) (e_deleted st) (e_trace st) (e_errs st).
Definition set_queues st c p g f : est W :=
  mkE (e_world st) (e_nodes st) (e_res st) c p g f (e_asg st)
      (e_ret st) (e_cmd st) (e_abt st) (e_upd st) (e_plans st) (e_deleted st) (e_trace st) (e_errs st).
Definition set_out st a r c b u : est W :=
  mkE (e_world st) (e_nodes st) (e_res st) (e_cand st) (e_pend st) (e_chg st) (e_fin st)
      a r c b u (e_plans st) (e_deleted st) (e_trace st) (e_errs st).
Definition set_plans st l d : est W :=
  mkE (e_world st) (e_nodes st) (e_res st) (e_cand st) (e_pend st) (e_chg st) (e_fin st) (e_asg st)
      (e_ret st) (e_cmd st) (e_abt st) (e_upd st) l d (e_trace st) (e_errs st).
Definition log st ev : est W :=
  mkE (e_world st) (e_nodes st) (e_res st) (e_cand st) (e_pend st) (e_chg st) (e_fin st) (e_asg st)
      (e_ret st) (e_cmd st) (e_abt st) (e_upd st) (e_plans st) (e_deleted st) (ev :: e_trace st) (e_errs st).
Definition fail st er : est W :=
  mkE (e_world st) (e_nodes st) (e_res st) (e_cand st) (e_pend st) (e_chg st) (e_fin st) (e_asg st)
      (e_ret st) (e_cmd st) (e_abt st) (e_upd st) (e_plans st) (e_deleted st) (e_trace st) (er :: e_errs st).

Definition core st n : ncore := d_core (e_nodes st n).
Definition state st n : nstate := k_state (core st n).
Definition next st n : option nstate := k_next (core st n).
Definition qs st n : qstatus := d_qs (e_nodes st n).

(** NodeImpl::setQueueStatus, NodeImpl.hh. *)
Definition setQs st n q : est W :=
  let d := e_nodes st n in
  set_nodes st (upd (e_nodes st) n (mkD (d_core d) q (d_ack d) (d_abort d) (d_handle d))).
Definition setCore st n k : est W :=
  let d := e_nodes st n in
  set_nodes st (upd (e_nodes st) n (mkD k (d_qs d) (d_ack d) (d_abort d) (d_handle d))).
Definition setAcks st n a b h : est W :=
  let d := e_nodes st n in
  set_nodes st (upd (e_nodes st) n (mkD (d_core d) (d_qs d) a b h)).

(** NodeImpl::getParent. *)
Definition parent P n : option nat := hd_error (p_anc P n).

(** A user condition as a slot of m_conditions. *)
Definition ucondv P st n (u : ucond) : cond :=
  if p_has P n u then Some (p_cond P (e_world st) (fun m => view (e_nodes st m)) n u) else None.

(** The conditions a List node provides to its children, ListNode.cc:228-312. *)
Fixpoint kidExit P st (l : list nat) : cond :=
  match l with [] => None | p :: l' => combine kor (ucondv P st p UExit) (kidExit P st l') end.
Fixpoint kidInv P st (l : list nat) : cond :=
  match l with [] => None | p :: l' => combine kand (ucondv P st p UInv) (kidInv P st l') end.
Fixpoint kidEnd P st (l : list nat) : cond :=
  match l with [] => None | p :: l' => combine kor (ucondv P st p UEnd) (kidEnd P st l') end.

Definition isFinished st n : bool := nstate_eqb (state st n) FINISHED.
Definition isWaitFin st n : bool :=
  nstate_eqb (state st n) FINISHED || nstate_eqb (state st n) WAITING.
(** AllFinished, ListNode.cc:47-78. *)
Definition allFinished P st n : bool := forallb (isFinished st) (p_kids P n).
(** AllWaitingOrFinished, ListNode.cc:107-150. *)
Definition allWaitingOrFinished P st n : bool := forallb (isWaitFin st) (p_kids P n).

(** CommandHandleInterruptible, CommandNode.cc:48-71. *)
Definition interruptible (h : chandle) : bool :=
  match h with COMMAND_DENIED | COMMAND_FAILED | COMMAND_INTERFACE_ERROR => true | _ => false end.
Definition handleKnown (h : chandle) : bool :=
  match h with NO_COMMAND_HANDLE => false | _ => true end.

(** The end condition after createConditionWrappers: ListNode.cc:271-309,
    CommandNode.cc:175-188, UpdateNode.cc:256-274; unchanged otherwise. *)
Definition endCond P st n : cond :=
  let u := ucondv P st n UEnd in
  let d := e_nodes st n in
  match p_type P n with
  | NList => match u with Some v => Some v | None => Some (Some (allFinished P st n)) end
  | NCommand => match u with Some v => Some (kor (Some (interruptible (d_handle d))) v) | None => None end
  | NUpdate => match u with Some v => Some (kand (Some (d_ack d)) v) | None => Some (Some (d_ack d)) end
  | _ => u
  end.

(** Action-complete condition: Assignment ack (AssignmentNode.cc:96-100),
    command handle known (CommandNode.cc:166), update ack (UpdateNode.cc:252),
    children waiting or finished (ListNode.cc:231). *)
Definition actionCond P st n : tri :=
  let d := e_nodes st n in
  match p_type P n with
  | NList => Some (allWaitingOrFinished P st n)
  | NCommand => Some (handleKnown (d_handle d))
  | _ => Some (d_ack d)
  end.

Definition condsOf P st n : conds :=
  let a := p_anc P n in
  mkConds (kidExit P st a) (kidInv P st a) (kidEnd P st a)
    (ucondv P st n USkip) (ucondv P st n UStart) (ucondv P st n UPre) (ucondv P st n UExit)
    (ucondv P st n UInv) (endCond P st n) (ucondv P st n UPost) (ucondv P st n URepeat)
    (actionCond P st n) (Some (d_abort (e_nodes st n))).

(** NodeImpl::getDestState, NodeImpl.cc:739-774, evaluated in the exec state. *)
Definition getDestNode P st n : est W * bool :=
  let '(k, b) := coreGetDest (p_type P n) (option_map (state st) (parent P n)) (condsOf P st n)
                             (core st n) in
  (setCore st n k, b).

(** NodeImpl::notify, NodeImpl.cc:574-624; addCandidateNode, PlexilExec.cc:403. *)
Definition notify st n : est W :=
  match qs st n with
  | QNone => set_queues (setQs st n QCheck) (e_cand st ++ [n]) (e_pend st) (e_chg st) (e_fin st)
  | QPending => setQs st n QPendingCheck
  | QPendingTry => setQs st n QPendingTryCheck
  | QTransition => setQs st n QTransitionCheck
  | QCheck | QPendingCheck | QTransitionCheck => st
  | QDelete => fail st (ENotifyDeleted n)
  | QPendingTryCheck => fail st (ENotifyInvalid n)
  end.
Definition notifyAll st (l : list nat) : est W := fold_left notify l st.

(** NodeImpl::notifyResourceAvailable, NodeImpl.cc:704-731. *)
Definition notifyRes st n : est W :=
  match qs st n with
  | QPending => setQs st n QPendingTry
  | QPendingCheck => setQs st n QPendingTryCheck
  | _ => st
  end.

(** Reservable::addWaitingNode / removeWaitingNode, Reservable.cc:101-122. *)
Definition addWaiting st (r : res) n : est W :=
  let x := e_res st r in
  if memb n (r_waiters x) then st
  else set_res st (updr (e_res st) r (mkRes (r_holder x) (r_waiters x ++ [n]))).
Definition removeWaiting st (r : res) n : est W :=
  let x := e_res st r in
  set_res st (updr (e_res st) r (mkRes (r_holder x) (rem1 n (r_waiters x)))).

(** Reservable::acquire, Reservable.cc:56-73. *)
Definition acquire st (r : res) n : est W * bool :=
  let x := e_res st r in
  match r_holder x with
  | Some _ => (addWaiting st r n, false)
  | None => (removeWaiting (set_res st (updr (e_res st) r (mkRes (Some n) (r_waiters x)))) r n, true)
  end.

(** Reservable::release, Reservable.cc:78-97. *)
Definition release st (r : res) n : est W :=
  let x := e_res st r in
  match r_holder x with
  | Some h =>
      if Nat.eqb h n
      then fold_left notifyRes (r_waiters x)
             (set_res st (updr (e_res st) r (mkRes None (r_waiters x))))
      else st
  | None => st
  end.

Definition isAssignment P n : bool := match p_type P n with NAssignment => true | _ => false end.

(** Resources a node must hold while it runs: its mutexes, then, for an
    Assignment, the variable (NodeImpl.cc:641-676). *)
Definition mutexes P n : list res := map RMutex (p_mutex P n).

(** NodeImpl::acquiresResources, NodeImpl.cc:631; AssignmentNode.hh:76. *)
Definition acquiresResources P n : bool :=
  isAssignment P n || negb (match p_mutex P n with [] => true | _ => false end).

(** The mutex loop of tryResourceAcquisition, NodeImpl.cc:644-660.  On failure
    every ancestor is compared with the holder (checkPlanError). *)
Fixpoint acquireAll P st n (rs : list res) : est W * bool :=
  match rs with
  | [] => (st, true)
  | r :: rs' =>
      let '(st1, ok) := acquire st r n in
      if ok then acquireAll P st1 n rs'
      else (match r_holder (e_res st1 r) with
            | Some h => if memb h (p_anc P n) then fail st1 (EAncestorHolds n) else st1
            | None => st1
            end, false)
  end.

(** NodeImpl.cc:678-688: give back what was obtained, queue up on all mutexes. *)
Definition backOff st n (rs : list res) : est W :=
  fold_left (fun st r => addWaiting
               (match r_holder (e_res st r) with
                | Some h => if Nat.eqb h n then release st r n else st
                | None => st
                end) r n) rs st.

(** NodeImpl::tryResourceAcquisition, NodeImpl.cc:641-690. *)
Definition tryAcquire P st n : est W * bool :=
  let '(st1, ok1) := acquireAll P st n (mutexes P n) in
  let '(st2, ok2) :=
    if isAssignment P n then
      if ok1 then acquire st1 (RVar (p_var P n)) n
      else (addWaiting st1 (RVar (p_var P n)) n, false)
    else (st1, ok1) in
  (if ok2 then st2 else backOff st2 n (mutexes P n), ok2).

(** NodeImpl::releaseResourceReservations, NodeImpl.cc:696-702, and
    AssignmentNode.cc:120-124. *)
Definition releaseReservations P st n : est W :=
  fold_left (fun st r => removeWaiting st r n) (mutexes P n)
    (if isAssignment P n then removeWaiting st (RVar (p_var P n)) n else st).

(** PlexilExec::addStateChangeNode, PlexilExec.cc:689-733. *)
Definition addStateChange st n : est W :=
  match qs st n with
  | QNone => set_queues (setQs st n QTransition) (e_cand st) (e_pend st) (e_chg st ++ [n]) (e_fin st)
  | _ => fail st (EAddTransition n)
  end.

(** PriorityQueue::insert, LinkedQueue.hh:465-495: after every entry whose
    priority is numerically less than or equal. *)
Fixpoint insertPrio P n (l : list nat) : list nat :=
  match l with
  | [] => [n]
  | x :: l' => if (p_prio P n <? p_prio P x)%Z then n :: l else x :: insertPrio P n l'
  end.

(** PlexilExec::addPendingNode, PlexilExec.cc:738-746. *)
Definition addPending P st n : est W :=
  set_queues (setQs st n QPendingTry) (e_cand st) (insertPrio P n (e_pend st)) (e_chg st) (e_fin st).

(** PlexilExec::removePendingNode, PlexilExec.cc:752-757. *)
Definition removePending P st n : est W :=
  releaseReservations P
    (setQs (set_queues st (e_cand st) (rem1 n (e_pend st)) (e_chg st) (e_fin st)) n QNone) n.

Definition isExecuting (s : option nstate) : bool :=
  match s with Some EXECUTING => true | _ => false end.

(** PlexilExec::resourceCheckEligible, PlexilExec.cc:486-541. *)
Definition checkEligible P st n : est W * bool :=
  match qs st n with
  | QPendingCheck =>
      let '(st1, go) := getDestNode P st n in
      let st2 :=
        if negb go then removePending P st1 n
        else if negb (isExecuting (next st1 n)) then addStateChange (removePending P st1 n) n
        else st1 in
      (setQs st2 n QPending, false)
  | QPendingTryCheck =>
      let '(st1, go) := getDestNode P st n in
      if negb go then (removePending P st1 n, false)
      else if negb (isExecuting (next st1 n))
           then (addStateChange (removePending P st1 n) n, false)
           else (st1, true)
  | QPendingTry => (st, true)
  | QPending => (st, false)
  | _ => (fail st (EBadPending n), false)
  end.

(** The gathering do-loop of resolveResourceConflicts, PlexilExec.cc:558-563,
    over the remaining part [l] of the queue.  When checkEligible takes the node
    off the queue its next pointer is null, so the traversal ends there
    (LinkedQueue.hh:203-230, 163-180): the rest is [[]]. *)
Fixpoint gather P st (prio : Z) (l acc : list nat) : est W * list nat * list nat :=
  match l with
  | [] => (st, acc, [])
  | x :: l' =>
      if (p_prio P x =? prio)%Z then
        let '(st1, ok) := checkEligible P st x in
        let acc1 := if ok then acc ++ [x] else acc in
        if memb x (e_pend st1) then gather P st1 prio l' acc1 else (st1, acc1, [])
      else (st, acc, l)
  end.

(** PlexilExec.cc:572-586: one node tries to get its resources. *)
Definition tryOne P st n : est W :=
  let '(st1, ok) := tryAcquire P st n in
  if ok then addStateChange (removePending P st1 n) n else setQs st1 n QPending.

(** The outer while-loop, PlexilExec.cc:550-590; the fuel is the queue length. *)
Fixpoint resolveLoop P (fuel : nat) st (l : list nat) : est W :=
  match l with
  | [] => st
  | x :: _ =>
      match fuel with
      | O => fail st EFuel
      | S f =>
          let '(st1, acc, rest) := gather P st (p_prio P x) l [] in
          resolveLoop P f (fold_left (tryOne P) acc st1) rest
      end
  end.

(** PlexilExec::resolveResourceConflicts, PlexilExec.cc:546-591. *)
Definition resolve P st : est W := resolveLoop P (length (e_pend st)) st (e_pend st).

(** One turn of the candidate loop, PlexilExec.cc:268-288; getCandidateNode
    660-668; resourceCheckRequired 475-480. *)
Definition checkOne P st : est W :=
  match e_cand st with
  | [] => st
  | n :: cs =>
      let st0 := setQs (set_queues st cs (e_pend st) (e_chg st) (e_fin st)) n QNone in
      let '(st1, go) := getDestNode P st0 n in
      if go then
        if isExecuting (next st1 n) && acquiresResources P n
        then addPending P st1 n else addStateChange st1 n
      else st1
  end.

(** PlexilExec::addFinishedRootNode, PlexilExec.cc:773-797. *)
Definition addFinished st n : est W :=
  match qs st n with
  | QCheck => set_queues (setQs st n QDelete) (rem1 n (e_cand st)) (e_pend st) (e_chg st) (e_fin st ++ [n])
  | QNone => set_queues (setQs st n QDelete) (e_cand st) (e_pend st) (e_chg st) (e_fin st ++ [n])
  | QDelete => st
  | _ => fail st (EFinishedBusy n)
  end.

Definition isWaiting (s : nstate) : bool := nstate_eqb s WAITING.

(** Resource releases in transitionToIterationEnded (NodeImpl.cc:1258-1266,
    AssignmentNode.cc:377-384) and transitionToFinished (NodeImpl.cc:1377-1384,
    AssignmentNode.cc:397-404). *)
Definition releaseAll st n (rs : list res) : est W :=
  fold_left (fun st r => release st r n) rs st.
Definition leaveResources P st n (s nxt : nstate) : est W :=
  match nxt with
  | ITERATION_ENDED =>
      if isWaiting s then st
      else releaseAll (if isAssignment P n then release st (RVar (p_var P n)) n else st) n (mutexes P n)
  | FINISHED =>
      let st1 := if isAssignment P n && nstate_eqb s FAILING
                 then release st (RVar (p_var P n)) n else st in
      if isWaiting s then releaseAll st1 n (mutexes P n) else st1
  | _ => st
  end.

(** transitionToFailing: AssignmentNode.cc:300-305, CommandNode.cc:458-462. *)
Definition failEnqueue P st n (nxt : nstate) : est W :=
  match nxt, p_type P n with
  | FAILING, NAssignment => set_out st (e_asg st) (e_ret st ++ [n]) (e_cmd st) (e_abt st) (e_upd st)
  | FAILING, NCommand => set_out st (e_asg st) (e_ret st) (e_cmd st) (e_abt st ++ [n]) (e_upd st)
  | _, _ => st
  end.

(** NodeImpl::execute / specializedHandleExecution: AssignmentNode.cc:256-264,
    CommandNode.cc:524-530, UpdateNode.cc:287-293. *)
Definition execEnqueue P st n (nxt : nstate) : est W :=
  match nxt, p_type P n with
  | EXECUTING, NAssignment => set_out st (e_asg st ++ [n]) (e_ret st) (e_cmd st) (e_abt st) (e_upd st)
  | EXECUTING, NCommand => set_out st (e_asg st) (e_ret st) (e_cmd st ++ [n]) (e_abt st) (e_upd st)
  | EXECUTING, NUpdate => set_out st (e_asg st) (e_ret st) (e_cmd st) (e_abt st) (e_upd st ++ [n])
  | _, _ => st
  end.

(** Acknowledgement variables are reset when (re)activated: on entering
    EXECUTING (ack, command handle) and FAILING (abort complete);
    SimpleBooleanVariable.cc:84-87, CommandImpl.cc:activate. *)
Definition resetAcks st n (nxt : nstate) : est W :=
  let d := e_nodes st n in
  match nxt with
  | EXECUTING => setAcks st n false (d_abort d) NO_COMMAND_HANDLE
  | FAILING => setAcks st n (d_ack d) false (d_handle d)
  | _ => st
  end.

(** ListNode::setState, ListNode.cc:406-427: children that care are notified. *)
Definition notifyKids P st n (nxt : nstate) : est W :=
  match p_type P n with
  | NList =>
      match nxt with
      | WAITING =>
          fold_left (fun st c => if nstate_eqb (state st c) FINISHED then notify st c else st)
                    (p_kids P n) st
      | EXECUTING | FINISHED =>
          fold_left (fun st c => if nstate_eqb (state st c) INACTIVE then notify st c else st)
                    (p_kids P n) st
      | _ => st
      end
  | _ => st
  end.

(** NodeImpl::setState, NodeImpl.cc:1478-1491, after m_state was updated. *)
Definition afterSetState P st n (nxt : nstate) : est W :=
  match parent P n, nxt with
  | None, FINISHED => addFinished st n
  | _, _ => notify st n
  end.

Definition inb (s : nstate) (l : list nstate) : bool := existsb (nstate_eqb s) l.

(** NodeImpl::transition, NodeImpl.cc:780-853.  [pre]: nodes notified by the
    condition and variable (de)activations before setState; [post]: nodes
    notified by execute() and publishChange(). *)
Definition transition P st n (pre post : list nat) : est W :=
  let s := state st n in
  match next st n with
  | None => fail st (EBadTransition n)
  | Some nxt =>
      if nstate_eqb nxt s then st
      else
        let st0 := if inb nxt (successors (p_type P n) s) then st else fail st (EBadTransition n) in
        let st1 := notifyAll st0 pre in
        let st2 := leaveResources P st1 n s nxt in
        let st3 := failEnqueue P st2 n nxt in
        let st4 := setCore st3 n (coreTransition (core st3 n)) in
        let st5 := afterSetState P st4 n nxt in
        let st6 := notifyKids P st5 n nxt in
        let st7 := execEnqueue P (resetAcks st6 n nxt) n nxt in
        let st8 := set_world st7 (p_effect P (e_world st7) n s nxt) in
        notifyAll (log st8 (EvTrans n s nxt)) post
  end.

(** One turn of the transition loop, PlexilExec.cc:315-335; getStateChangeNode
    673-685. *)
Definition transitionOne P st (pre post : list nat) : est W :=
  match e_chg st with
  | [] => st
  | n :: cs =>
      let was := qs st n in
      let st0 := setQs (set_queues st (e_cand st) (e_pend st) cs (e_fin st)) n QNone in
      let st1 := match was with QTransitionCheck => notify st0 n | _ => st0 end in
      transition P st1 n pre post
  end.

(** performAssignments, PlexilExec.cc:594-606, one element at a time:
    Assignment::execute (Assignment.cc:142-149) and retract (151-162).  The ack
    and abort-complete variables ignore setValue while inactive
    (SimpleBooleanVariable.cc:109), i.e. outside EXECUTING / FAILING. *)
Definition assignOne P st (notes : list nat) : est W :=
  match e_asg st with
  | [] => st
  | n :: l =>
      let st1 := set_out st l (e_ret st) (e_cmd st) (e_abt st) (e_upd st) in
      let st2 := set_world st1 (p_assign P (e_world st1) n) in
      let d := e_nodes st2 n in
      let st3 := if nstate_eqb (state st2 n) EXECUTING
                 then setAcks st2 n true (d_abort d) (d_handle d) else st2 in
      notifyAll (log st3 (EvAssign n)) notes
  end.
Definition retractOne P st (notes : list nat) : est W :=
  match e_ret st with
  | [] => st
  | n :: l =>
      let st1 := set_out st (e_asg st) l (e_cmd st) (e_abt st) (e_upd st) in
      let st2 := set_world st1 (p_retract P (e_world st1) n) in
      let d := e_nodes st2 n in
      let st3 := if nstate_eqb (state st2 n) FAILING
                 then setAcks st2 n (d_ack d) true (d_handle d) else st2 in
      notifyAll (log st3 (EvRetract n)) notes
  end.

(** executeOutboundQueue without a resource arbiter, PlexilExec.cc:610-655
    (the arbiter is modelled in Arbiter.v). *)
Definition outbound st : est W :=
  let st1 := fold_left (fun st n => log st (EvCommand n)) (e_cmd st) st in
  let st2 := fold_left (fun st n => log st (EvAbort n)) (e_abt st) st1 in
  let st3 := fold_left (fun st n => log st (EvUpdate n)) (e_upd st) st2 in
  set_out st3 (e_asg st3) (e_ret st3) [] [] [].

Definition running (s : nstate) : bool :=
  match s with EXECUTING | FINISHING | FAILING => true | _ => false end.

(** What can happen to the exec, at the grain of one loop turn, plus the calls
    made from outside between macro steps. *)
Inductive action : Type :=
| ACheck                                (* one candidate examined *)
| AResolve                              (* resolveResourceConflicts *)
| ATransition (pre post : list nat)     (* one node transitioned *)
| AAssign (notes : list nat)            (* one assignment performed *)
| ARetract (notes : list nat)           (* one assignment retracted *)
| AOutbound                             (* executeOutboundQueue *)
| AAddPlan (root : nat) (notes : list nat)
| AEnv (change : nat) (notes : list nat)(* the world changed *)
| AUpdateAck (n : nat) (notes : list nat)
| ACommandHandle (n : nat) (h : chandle) (notes : list nat)
| ACommandAbortAck (n : nat) (notes : list nat)
| ADelete.                              (* deleteFinishedPlans *)

(** deleteFinishedPlans, PlexilExec.cc:222-234. *)
Definition deleteFinished st : est W :=
  let st1 := fold_left (fun st n => log (set_plans st (filter (fun m => negb (Nat.eqb m n)) (e_plans st))
                                              (e_deleted st)) (EvDelete n)) (e_fin st) st in
  set_plans (set_queues st1 (e_cand st1) (e_pend st1) (e_chg st1) []) (e_plans st1) true.

(** [env] says how the world changes on an external event. *)
Definition act (env : nat -> W -> W) P st (a : action) : est W :=
  match a with
  | ACheck => checkOne P st
  | AResolve => resolve P st
  | ATransition pre post => transitionOne P st pre post
  | AAssign notes => assignOne P st notes
  | ARetract notes => retractOne P st notes
  | AOutbound => outbound st
  | AAddPlan root notes =>   (* PlexilExec.cc:186-194 *)
      match parent P root with
      | None =>   (* a newly constructed plan: INACTIVE, not already running *)
          if negb (memb root (e_plans st)) && nstate_eqb (state st root) INACTIVE
          then notifyAll (notify (set_plans st (e_plans st ++ [root]) (e_deleted st)) root) notes
          else st
      | Some _ => st
      end
  | AEnv c notes => notifyAll (set_world st (env c (e_world st))) notes
  | AUpdateAck n notes =>    (* UpdateNode.cc:111-116 *)
      let d := e_nodes st n in
      match p_type P n with
      | NUpdate => if running (state st n)
                   then notifyAll (setAcks st n true (d_abort d) (d_handle d)) notes else st
      | _ => st
      end
  | ACommandHandle n h notes =>   (* CommandImpl.cc:setCommandHandle *)
      let d := e_nodes st n in
      match p_type P n with
      | NCommand => if running (state st n)
                    then notifyAll (setAcks st n (d_ack d) (d_abort d) h) notes else st
      | _ => st
      end
  | ACommandAbortAck n notes =>   (* CommandImpl.cc:acknowledgeAbort *)
      let d := e_nodes st n in
      match p_type P n with
      | NCommand => if nstate_eqb (state st n) FAILING
                    then notifyAll (setAcks st n (d_ack d) true (d_handle d)) notes else st
      | _ => st
      end
  | ADelete => deleteFinished st
  end.

Definition run (env : nat -> W -> W) P (l : list action) st : est W := fold_left (act env P) l st.

(** ------------------------------------------------------------------ *)
(** The macro step.  [pol] resolves the notification lists: it gives, for the
    exec state at a transition / assignment and the node concerned, the nodes
    notified before and after the state change. *)
Definition policy := est W -> nat -> list nat * list nat.

(** The candidate loop, PlexilExec.cc:268; no check adds a candidate, so the
    length of the queue bounds it. *)
Definition checkAll P st : est W := Nat.iter (length (e_cand st)) (checkOne P) st.

(** The transition loop, PlexilExec.cc:315; no transition adds to the queue. *)
Definition transPol P (pol : policy) st : est W :=
  match e_chg st with
  | [] => st
  | n :: _ => let '(pre, post) := pol st n in transitionOne P st pre post
  end.
Definition transAll P (pol : policy) st : est W := Nat.iter (length (e_chg st)) (transPol P pol) st.

Definition isNil {A} (l : list A) : bool := match l with [] => true | _ => false end.

(** Quiescence loop, PlexilExec.cc:252-358.  [None]: not finished within the fuel. *)
Fixpoint quiesce P (pol : policy) (fuel : nat) st : option (est W) :=
  match fuel with
  | O => None
  | S f =>
      let st1 := checkAll P st in
      let st2 := if isNil (e_pend st1) then st1 else resolve P st1 in
      if isNil (e_chg st2) then Some st2
      else
        let st3 := transAll P pol st2 in
        if isNil (e_asg st3) && isNil (e_ret st3) && isNil (e_cmd st3) && isNil (e_abt st3)
           && negb (isNil (e_cand st3))
        then quiesce P pol f st3 else Some st3
  end.

Definition assignPol P (pol : policy) st : est W :=
  match e_asg st with [] => st | n :: _ => assignOne P st (snd (pol st n)) end.
Definition retractPol P (pol : policy) st : est W :=
  match e_ret st with [] => st | n :: _ => retractOne P st (snd (pol st n)) end.

(** performAssignments, PlexilExec.cc:594-606. *)
Definition performAssignments P (pol : policy) st : est W :=
  let st1 := Nat.iter (length (e_asg st)) (assignPol P pol) st in
  Nat.iter (length (e_ret st1)) (retractPol P pol) st1.

(** PlexilExec::step, PlexilExec.cc:235-395. *)
Definition macroStep P (pol : policy) (fuel : nat) st : option (est W) :=
  match quiesce P pol fuel st with
  | Some st1 => Some (outbound (performAssignments P pol st1))
  | None => None
  end.

(** needsStep, PlexilExec.cc:228. *)
Definition needsStep st : bool := negb (isNil (e_cand st)).

(** allPlansFinished, PlexilExec.cc:196-216. *)
Fixpoint allFin (st : est W) (l : list nat) (acc : bool) : bool :=
  match l with
  | [] => acc
  | r :: l' => if nstate_eqb (state st r) FINISHED then allFin st l' true else false
  end.
Definition allPlansFinished st : bool := allFin st (e_plans st) (e_deleted st).

End Exec.
