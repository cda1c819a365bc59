(** Node state logic: the decision functions getDestState* and the per-node
    part of NodeImpl::transition, for all node types.

    Models /repo/src/exec/NodeImpl.cc, ListNode.cc, CommandNode.cc,
    AssignmentNode.cc, UpdateNode.cc.  LibraryCallNode inherits all its state
    logic from ListNode (LibraryCallNode.cc:36-99), so it is [NList] here. *)

From Coq Require Export List Bool Arith ZArith Lia.
Export ListNotations.

(** value/NodeConstants.hh:46-57, enum NodeState.  NO_NODE_STATE is modelled by
    [None : option nstate] where it can occur. *)
Inductive nstate : Type :=
| INACTIVE | WAITING | EXECUTING | ITERATION_ENDED | FINISHED | FAILING | FINISHING.

(** value/NodeConstants.hh:92-100, enum NodeOutcome. *)
Inductive outcome : Type :=
| NO_OUTCOME | SUCCESS | FAILURE | SKIPPED | INTERRUPTED.

(** value/NodeConstants.hh:134-145, enum FailureType. *)
Inductive failure : Type :=
| NO_FAILURE | PRE_CONDITION_FAILED | POST_CONDITION_FAILED
| INVARIANT_CONDITION_FAILED | PARENT_FAILED | EXITED | PARENT_EXITED.

(** exec/PlexilNodeType.hh, enum PlexilNodeType; NodeList and LibraryNodeCall
    share one constructor (see the header comment). *)
Inductive ntype : Type := NEmpty | NAssignment | NCommand | NUpdate | NList.

(** A Boolean expression's value: [None] is UNKNOWN (Expression::getValue
    returning false), [Some b] a known value. *)
Notation tri := (option bool).

(** A condition slot of NodeImpl::m_conditions: [None] is the null pointer. *)
Notation cond := (option (option bool)).

(** [cond && cond->getValue(temp) && temp] *)
Definition isT (c : cond) : bool :=
  match c with Some (Some true) => true | _ => false end.
(** [cond && cond->getValue(temp) && !temp] *)
Definition isF (c : cond) : bool :=
  match c with Some (Some false) => true | _ => false end.
(** [cond && (!cond->getValue(temp) || !temp)]: present and not known true *)
Definition notT (c : cond) : bool :=
  match c with None => false | Some (Some true) => false | Some _ => true end.

(** The 13 conditions of a node, NodeImpl.hh enum ConditionIndex.  The three
    ancestor conditions are the parent's (NodeImpl::getCondition,
    NodeImpl.cc:524-538), absent for a root.  Action- and abort-complete always
    exist where they are read. *)
Record conds : Type := mkConds {
  c_ancExit : cond; c_ancInv : cond; c_ancEnd : cond;
  c_skip : cond; c_start : cond; c_pre : cond; c_exit : cond;
  c_inv : cond; c_end : cond; c_post : cond; c_repeat : cond;
  c_action : tri; c_abort : tri }.

(** Effect of a getDestState* call on m_nextState, m_nextOutcome and
    m_nextFailureType.  [DStay]: returns false.  [DGo s o f]: returns true with
    m_nextState = s; [o]/[f] = None means the field is not assigned.
    [DErr]: the errorMsg branch of a state not defined for the type. *)
Inductive dest : Type :=
| DStay
| DGo (s : nstate) (o : option outcome) (f : option failure)
| DErr.

(** NodeImpl::getDestStateFromInactive, NodeImpl.cc:870-950.
    [par] is the parent's state, None for a root node. *)
Definition destFromInactive (par : option nstate) (c : conds) : dest :=
  match par with
  | Some FINISHED => DGo FINISHED (Some SKIPPED) None
  | Some EXECUTING =>
      if isT (c_ancExit c) then DGo FINISHED (Some SKIPPED) None
      else if isF (c_ancInv c) then DGo FINISHED (Some SKIPPED) None
      else if isT (c_ancEnd c) then DGo FINISHED (Some SKIPPED) None
      else DGo WAITING None None
  | Some _ => DStay
  | None => DGo WAITING None None
  end.

(** NodeImpl::getDestStateFromWaiting, NodeImpl.cc:983-1085. *)
Definition destFromWaiting (c : conds) : dest :=
  if isT (c_ancExit c) then DGo FINISHED (Some SKIPPED) None
  else if isT (c_exit c) then DGo FINISHED (Some SKIPPED) None
  else if isF (c_ancInv c) then DGo FINISHED (Some SKIPPED) None
  else if isT (c_ancEnd c) then DGo FINISHED (Some SKIPPED) None
  else if isT (c_skip c) then DGo FINISHED (Some SKIPPED) None
  else if notT (c_start c) then DStay
  else if notT (c_pre c) then
    DGo ITERATION_ENDED (Some FAILURE) (Some PRE_CONDITION_FAILED)
  else DGo EXECUTING None None.

(** The common tail "m_nextState = ITERATION_ENDED; post-condition decides the
    outcome": NodeImpl.cc:1206-1216, AssignmentNode.cc:242-253,
    UpdateNode.cc:377-388, CommandNode.cc:399-412, ListNode.cc:659-674. *)
Definition destPost (c : conds) : dest :=
  if notT (c_post c)
  then DGo ITERATION_ENDED (Some FAILURE) (Some POST_CONDITION_FAILED)
  else DGo ITERATION_ENDED (Some SUCCESS) None.

(** NodeImpl::getDestStateFromExecuting (Empty nodes), NodeImpl.cc:1132-1217. *)
Definition destFromExecutingEmpty (c : conds) : dest :=
  if isT (c_ancExit c) then DGo FINISHED (Some INTERRUPTED) (Some PARENT_EXITED)
  else if isT (c_exit c) then DGo ITERATION_ENDED (Some INTERRUPTED) (Some EXITED)
  else if isF (c_ancInv c) then DGo FINISHED (Some FAILURE) (Some PARENT_FAILED)
  else if isF (c_inv c) then
    DGo ITERATION_ENDED (Some FAILURE) (Some INVARIANT_CONDITION_FAILED)
  else if notT (c_end c) then DStay
  else destPost c.

(** The four checks leading to FAILING shared by the other types:
    AssignmentNode.cc:162-228, UpdateNode.cc:299-361, CommandNode.cc:213-277 and
    333-396, ListNode.cc:465-527 and 589-651. *)
Definition destInterrupt (c : conds) (k : dest) : dest :=
  if isT (c_ancExit c) then DGo FAILING (Some INTERRUPTED) (Some PARENT_EXITED)
  else if isT (c_exit c) then DGo FAILING (Some INTERRUPTED) (Some EXITED)
  else if isF (c_ancInv c) then DGo FAILING (Some FAILURE) (Some PARENT_FAILED)
  else if isF (c_inv c) then
    DGo FAILING (Some FAILURE) (Some INVARIANT_CONDITION_FAILED)
  else k.

(** AssignmentNode::getDestStateFromExecuting, AssignmentNode.cc:145-254. *)
Definition destFromExecutingAssignment (c : conds) : dest :=
  match c_action c with
  | Some true =>
      destInterrupt c (if notT (c_end c) then DStay else destPost c)
  | _ => DStay
  end.

(** UpdateNode::getDestStateFromExecuting, UpdateNode.cc:295-389. *)
Definition destFromExecutingUpdate (c : conds) : dest :=
  destInterrupt c (if notT (c_end c) then DStay else destPost c).

(** CommandNode::getDestStateFromExecuting, CommandNode.cc:209-293, and
    ListNode::getDestStateFromExecuting, ListNode.cc:461-545. *)
Definition destFromExecutingCmdList (c : conds) : dest :=
  destInterrupt c (if notT (c_end c) then DStay else DGo FINISHING None None).

(** CommandNode::getDestStateFromFinishing, CommandNode.cc:329-424, and
    ListNode::getDestStateFromFinishing, ListNode.cc:585-682. *)
Definition destFromFinishingCmdList (c : conds) : dest :=
  destInterrupt c
    (match c_action c with Some true => destPost c | _ => DStay end).

(** The tail of getDestStateFromFailing once its completion condition is true:
    AssignmentNode.cc:322-342, CommandNode.cc:473-493, UpdateNode.cc:435-453,
    ListNode.cc:742-763.  [f] is the node's current failure type. *)
Definition destFailingDone (f : failure) : dest :=
  match f with
  | PARENT_FAILED | PARENT_EXITED => DGo FINISHED None None
  | _ => DGo ITERATION_ENDED None None
  end.

(** getDestStateFromFailing: AssignmentNode.cc:307-343 and CommandNode.cc:464-499
    wait for abort-complete; UpdateNode.cc:430-464 and ListNode.cc:731-770 wait
    for action-complete; NodeImpl.cc:1454-1459 (Empty) is an error. *)
Definition destFromFailing (t : ntype) (f : failure) (c : conds) : dest :=
  match t with
  | NEmpty => DErr
  | NAssignment | NCommand =>
      match c_abort c with Some true => destFailingDone f | _ => DStay end
  | NUpdate | NList =>
      match c_action c with Some true => destFailingDone f | _ => DStay end
  end.

(** NodeImpl::getDestStateFromIterationEnded, NodeImpl.cc:1269-1341. *)
Definition destFromIterationEnded (c : conds) : dest :=
  if isT (c_ancExit c) then DGo FINISHED (Some INTERRUPTED) (Some PARENT_EXITED)
  else if isF (c_ancInv c) then DGo FINISHED (Some FAILURE) (Some PARENT_FAILED)
  else if isT (c_ancEnd c) then DGo FINISHED None None
  else match c_repeat c with
       | Some None => DStay
       | Some (Some true) => DGo WAITING None None
       | _ => DGo FINISHED None None
       end.

(** NodeImpl::getDestStateFromFinished, NodeImpl.cc:1387-1401. *)
Definition destFromFinished (par : option nstate) : dest :=
  match par with Some WAITING => DGo INACTIVE None None | _ => DStay end.

(** Virtual dispatch of getDestStateFromExecuting. *)
Definition destFromExecuting (t : ntype) (c : conds) : dest :=
  match t with
  | NEmpty => destFromExecutingEmpty c
  | NAssignment => destFromExecutingAssignment c
  | NUpdate => destFromExecutingUpdate c
  | NCommand | NList => destFromExecutingCmdList c
  end.

(** Virtual dispatch of getDestStateFromFinishing; NodeImpl.cc:1425-1430 is the
    error method inherited by Empty, Assignment and Update. *)
Definition destFromFinishing (t : ntype) (c : conds) : dest :=
  match t with
  | NCommand | NList => destFromFinishingCmdList c
  | _ => DErr
  end.

(** NodeImpl::getDestState, NodeImpl.cc:739-774. *)
Definition getDest (t : ntype) (s : nstate) (f : failure)
           (par : option nstate) (c : conds) : dest :=
  match s with
  | INACTIVE => destFromInactive par c
  | WAITING => destFromWaiting c
  | EXECUTING => destFromExecuting t c
  | FINISHING => destFromFinishing t c
  | FINISHED => destFromFinished par
  | FAILING => destFromFailing t f c
  | ITERATION_ENDED => destFromIterationEnded c
  end.

(** The mutable members of NodeImpl touched by the state logic
    (NodeImpl.hh, m_state, m_outcome, m_failureType, m_nextState,
    m_nextOutcome, m_nextFailureType). *)
Record ncore : Type := mkCore {
  k_state : nstate; k_out : outcome; k_fail : failure;
  k_next : option nstate; k_nextOut : outcome; k_nextFail : failure }.

(** Constructor values, NodeImpl.cc:145-177. *)
Definition core0 : ncore := mkCore INACTIVE NO_OUTCOME NO_FAILURE None NO_OUTCOME NO_FAILURE.

Definition orElse {A} (o : option A) (d : A) : A := match o with Some x => x | None => d end.

(** NodeImpl::getDestState as a mutation of the node: m_nextState is cleared
    first (NodeImpl.cc:746), outcome and failure type only when assigned.
    Returns the node and the Boolean result. *)
Definition coreGetDest (t : ntype) (par : option nstate) (c : conds) (k : ncore)
  : ncore * bool :=
  match getDest t (k_state k) (k_fail k) par c with
  | DGo s o f =>
      (mkCore (k_state k) (k_out k) (k_fail k) (Some s)
              (orElse o (k_nextOut k)) (orElse f (k_nextFail k)), true)
  | _ => (mkCore (k_state k) (k_out k) (k_fail k) None (k_nextOut k) (k_nextFail k), false)
  end.

Definition nstate_eqb (a b : nstate) : bool :=
  match a, b with
  | INACTIVE, INACTIVE | WAITING, WAITING | EXECUTING, EXECUTING
  | ITERATION_ENDED, ITERATION_ENDED | FINISHED, FINISHED
  | FAILING, FAILING | FINISHING, FINISHING => true
  | _, _ => false
  end.

(** NodeImpl::reset is called by transitionFromIterationEnded when going to
    WAITING (NodeImpl.cc:1355-1357) and by transitionFromFinished
    (NodeImpl.cc:1404-1407). *)
Definition resets (s nxt : nstate) : bool :=
  match s, nxt with
  | ITERATION_ENDED, WAITING => true
  | FINISHED, _ => true
  | _, _ => false
  end.

Definition isNoOut (o : outcome) : bool := match o with NO_OUTCOME => true | _ => false end.
Definition isNoFail (f : failure) : bool := match f with NO_FAILURE => true | _ => false end.

(** NodeImpl::transition restricted to the node's own members,
    NodeImpl.cc:780-853: reset, setState, setNodeOutcome, setNodeFailureType,
    clearing of the next* members. [None] as next state is the errorMsg
    branch NodeImpl.cc:816-818 (never reached from the exec, see ExecProofs). *)
Definition coreTransition (k : ncore) : ncore :=
  match k_next k with
  | None => k
  | Some nxt =>
      if nstate_eqb nxt (k_state k) then k
      else
        let out1 := if resets (k_state k) nxt then NO_OUTCOME else k_out k in
        let fail1 := if resets (k_state k) nxt then NO_FAILURE else k_fail k in
        let out2 := if isNoOut (k_nextOut k) then out1 else k_nextOut k in
        let fail2 := if isNoOut (k_nextOut k) then fail1
                     else if isNoFail (k_nextFail k) then fail1 else k_nextFail k in
        mkCore nxt out2 fail2 None NO_OUTCOME NO_FAILURE
  end.

(** One check-and-transition of a node under condition values [c] and parent
    state [par]: what PlexilExec::step does to a node that is a candidate and
    needs no resources (PlexilExec.cc:268-330). *)
Definition coreStep (t : ntype) (par : option nstate) (c : conds) (k : ncore) : ncore :=
  let '(k1, go) := coreGetDest t par c k in
  if go then coreTransition k1 else k1.

(** A history: the successive valuations at which the node is examined. *)
Definition coreRun (t : ntype) (h : list (option nstate * conds)) (k : ncore) : ncore :=
  fold_left (fun k e => coreStep t (fst e) (snd e) k) h k.

(** ---------------------------------------------------------------------- *)
(** Condition activation.  The conditions a node activates itself; the three
    ancestor conditions in this list are the ones a List node owns and
    activates for its children (ListNode.cc:452-458); the (de)activateAncestor*
    methods for a node's own ancestor conditions are no-ops
    (NodeImpl.cc:1697-1703, 1763-1769). *)
Inductive cidx : Type :=
| CSkip | CStart | CPre | CExit | CInv | CEnd | CPost | CRepeat | CAction | CAbort
| CKidExit | CKidInv | CKidEnd.

Definition cidx_eqb (a b : cidx) : bool :=
  match a, b with
  | CSkip, CSkip | CStart, CStart | CPre, CPre | CExit, CExit | CInv, CInv
  | CEnd, CEnd | CPost, CPost | CRepeat, CRepeat | CAction, CAction
  | CAbort, CAbort | CKidExit, CKidExit | CKidInv, CKidInv | CKidEnd, CKidEnd => true
  | _, _ => false
  end.

(** The sequence of activate (+1) / deactivate (-1) calls made by
    transitionFromX.  NodeImpl.cc:953-961 (INACTIVE), 1088-1110 (WAITING),
    1220-1241 (EXECUTING, Empty), 1344-1364 (ITERATION_ENDED), 1404 (FINISHED);
    AssignmentNode.cc:266-289, 345-366; UpdateNode.cc:391-416, 466-487;
    CommandNode.cc:295-314, 426-449, 501-522; ListNode.cc:547-569, 684-714, 772-803. *)
Definition fromActs (t : ntype) (s nxt : nstate) : list (cidx * Z) :=
  match s with
  | INACTIVE => []
  | WAITING =>
      [(CSkip,-1); (CStart,-1); (CPre,-1)] ++
      match nxt with FINISHED | ITERATION_ENDED => [(CExit,-1)] | _ => [] end
  | EXECUTING =>
      match t with
      | NEmpty => [(CExit,-1); (CInv,-1); (CEnd,-1); (CPost,-1)]
      | NAssignment => [(CExit,-1); (CInv,-1); (CEnd,-1); (CPost,-1); (CAction,-1)]
      | NUpdate => [(CExit,-1); (CInv,-1); (CEnd,-1); (CPost,-1)] ++
                   match nxt with FAILING => [(CAction,1)] | _ => [] end
      | NCommand => match nxt with
                    | FAILING => [(CExit,-1); (CInv,-1); (CEnd,-1)]
                    | FINISHING => [(CEnd,-1)]
                    | _ => [] end
      | NList => (CEnd,-1) ::
                 match nxt with
                 | FAILING => [(CExit,-1); (CInv,-1); (CAction,1)]
                 | FINISHING => [(CAction,1)]
                 | _ => [] end
      end
  | FINISHING =>
      match t with
      | NCommand => [(CExit,-1); (CInv,-1); (CPost,-1); (CAction,-1)]
      | NList => [(CExit,-1); (CInv,-1); (CPost,-1)] ++
                 match nxt with
                 | ITERATION_ENDED => [(CKidExit,-1); (CKidInv,-1); (CKidEnd,-1); (CAction,-1)]
                 | _ => [] end
      | _ => []
      end
  | FAILING =>
      match t with
      | NAssignment | NCommand => [(CAbort,-1)]
      | NUpdate => [(CAction,-1)]
      | NList => [(CKidExit,-1); (CKidInv,-1); (CKidEnd,-1); (CAction,-1)]
      | NEmpty => []
      end
  | ITERATION_ENDED => [(CRepeat,-1)]
  | FINISHED => []
  end%Z.

(** The same for transitionToX: NodeImpl.cc:865 (INACTIVE), 976-980 (WAITING),
    1122-1129 (EXECUTING), 1258-1266 (ITERATION_ENDED), 1377 (FINISHED);
    AssignmentNode.cc:139-143, 300-305; CommandNode.cc:200-207 (note that it
    activates the exit condition again), 323-327, 458-462; UpdateNode.cc:426;
    ListNode.cc:444-459, 580-583, 725-729. *)
Definition toActs (t : ntype) (nxt : nstate) : list (cidx * Z) :=
  match nxt with
  | INACTIVE | FINISHED => []
  | WAITING => [(CExit,1); (CSkip,1); (CStart,1); (CPre,1)]
  | EXECUTING =>
      match t with
      | NEmpty | NUpdate => [(CInv,1); (CEnd,1); (CPost,1)]
      | NAssignment => [(CInv,1); (CEnd,1); (CPost,1); (CAction,1)]
      | NCommand => [(CInv,1); (CExit,1); (CEnd,1)]
      | NList => [(CInv,1); (CEnd,1); (CKidExit,1); (CKidInv,1); (CKidEnd,1)]
      end
  | FINISHING =>
      match t with
      | NCommand => [(CPost,1); (CAction,1)]
      | NList => [(CPost,1)]
      | _ => []
      end
  | FAILING =>
      match t with
      | NAssignment | NCommand => [(CAbort,1)]
      | _ => []
      end
  | ITERATION_ENDED => [(CRepeat,1)]
  end%Z.

(** Activation counter of each condition (Notifier::m_activeCount). *)
Definition acount := cidx -> Z.
Definition applyActs (l : list (cidx * Z)) (a : acount) : acount :=
  fold_left (fun a e => fun i => if cidx_eqb i (fst e) then (a i + snd e)%Z else a i) l a.

(** Activation bookkeeping of one NodeImpl::transition. *)
Definition actTransition (t : ntype) (k : ncore) (a : acount) : acount :=
  match k_next k with
  | None => a
  | Some nxt => if nstate_eqb nxt (k_state k) then a
                else applyActs (toActs t nxt) (applyActs (fromActs t (k_state k) nxt) a)
  end.

(** Node with activation counters, one check-and-transition. *)
Definition actStep (t : ntype) (par : option nstate) (c : conds) (ka : ncore * acount)
  : ncore * acount :=
  let '(k1, go) := coreGetDest t par c (fst ka) in
  if go then (coreTransition k1, actTransition t k1 (snd ka)) else (k1, snd ka).

Definition actRun (t : ntype) (h : list (option nstate * conds)) : ncore * acount :=
  fold_left (fun ka e => actStep t (fst e) (snd e) ka) h (core0, fun _ => 0%Z).
