(** Specification vocabulary for node behaviour, independent of the decision
    functions of NodeModel: the published state diagrams as edge tables, what
    it means for a condition to be true/false, and which outcome/failure
    combinations make sense in which state. *)
From Verif Require Export NodeModel.

(** A condition "holds" only if present and known true; it is "violated" only
    if present and known false; it "permits" if absent or known true. *)
Definition holds (c : cond) : Prop := c = Some (Some true).
Definition violated (c : cond) : Prop := c = Some (Some false).
Definition permits (c : cond) : Prop := c = None \/ c = Some (Some true).

(** PLEXIL state diagrams, per node type (the "Legal successor states"
    comments: NodeImpl.cc:860, 971, 1119, 1253, 1371; AssignmentNode.cc:137, 298;
    UpdateNode.cc:285, 423; CommandNode.cc:198, 321, 456; ListNode.cc:442, 578, 723). *)
Definition successors (t : ntype) (s : nstate) : list nstate :=
  match s with
  | INACTIVE => [WAITING; FINISHED]
  | WAITING => [EXECUTING; FINISHED; ITERATION_ENDED]
  | EXECUTING =>
      match t with
      | NEmpty => [FINISHED; ITERATION_ENDED]
      | NAssignment | NUpdate => [FAILING; ITERATION_ENDED]
      | NCommand | NList => [FAILING; FINISHING]
      end
  | FINISHING => match t with NCommand | NList => [FAILING; ITERATION_ENDED] | _ => [] end
  | FAILING => match t with NEmpty => [] | _ => [FINISHED; ITERATION_ENDED] end
  | ITERATION_ENDED => [FINISHED; WAITING]
  | FINISHED => [INACTIVE]
  end.

(** States that exist for a node type. *)
Definition has_state (t : ntype) (s : nstate) : Prop :=
  match s with
  | FINISHING => t = NCommand \/ t = NList
  | FAILING => t <> NEmpty
  | _ => True
  end.

(** Which (outcome, failure type) pairs may be observed in which state. *)
Definition coherent (s : nstate) (o : outcome) (f : failure) : Prop :=
  match s with
  | INACTIVE | WAITING | EXECUTING | FINISHING => o = NO_OUTCOME /\ f = NO_FAILURE
  | FAILING =>
      (o = FAILURE /\ (f = PARENT_FAILED \/ f = INVARIANT_CONDITION_FAILED)) \/
      (o = INTERRUPTED /\ (f = EXITED \/ f = PARENT_EXITED))
  | ITERATION_ENDED =>
      (o = SUCCESS /\ f = NO_FAILURE) \/
      (o = FAILURE /\ (f = PRE_CONDITION_FAILED \/ f = POST_CONDITION_FAILED \/
                       f = INVARIANT_CONDITION_FAILED)) \/
      (o = INTERRUPTED /\ f = EXITED)
  | FINISHED =>
      (o = SUCCESS /\ f = NO_FAILURE) \/
      (o = SKIPPED /\ f = NO_FAILURE) \/
      (o = FAILURE /\ (f = PRE_CONDITION_FAILED \/ f = POST_CONDITION_FAILED \/
                       f = INVARIANT_CONDITION_FAILED \/ f = PARENT_FAILED)) \/
      (o = INTERRUPTED /\ (f = EXITED \/ f = PARENT_EXITED))
  end.

(** The documented set of active conditions per state ("Conditions active"
    comments, same lines as above; for EXECUTING/FINISHING/FAILING List nodes
    also the conditions kept active for the children, ListNode.cc:451-458). *)
Definition active_in (t : ntype) (s : nstate) (i : cidx) : bool :=
  match s with
  | INACTIVE | FINISHED => false
  | WAITING => match i with CExit | CSkip | CStart | CPre => true | _ => false end
  | EXECUTING =>
      match i with
      | CExit | CInv | CEnd => true
      | CPost => match t with NEmpty | NAssignment | NUpdate => true | _ => false end
      | CAction => match t with NAssignment => true | _ => false end
      | CKidExit | CKidInv | CKidEnd => match t with NList => true | _ => false end
      | _ => false
      end
  | FINISHING =>
      match i with
      | CExit | CInv | CPost | CAction => true
      | CKidExit | CKidInv | CKidEnd => match t with NList => true | _ => false end
      | _ => false
      end
  | FAILING =>
      match i with
      | CAction => match t with NUpdate | NList => true | _ => false end
      | CAbort => match t with NAssignment | NCommand => true | _ => false end
      | CKidExit | CKidInv | CKidEnd => match t with NList => true | _ => false end
      | _ => false
      end
  | ITERATION_ENDED => match i with CRepeat => true | _ => false end
  end.

(** Conditions whose value the decision in state [s] depends on (own
    conditions only). *)
Definition own_cond (c : conds) (i : cidx) : option tri :=
  match i with
  | CSkip => c_skip c | CStart => c_start c | CPre => c_pre c | CExit => c_exit c
  | CInv => c_inv c | CEnd => c_end c | CPost => c_post c | CRepeat => c_repeat c
  | CAction => Some (c_action c) | CAbort => Some (c_abort c)
  | _ => None
  end.

(** No termination condition of a running node fires. *)
Definition undisturbed (c : conds) : Prop :=
  ~ holds (c_ancExit c) /\ ~ holds (c_exit c) /\ ~ violated (c_ancInv c) /\ ~ violated (c_inv c).

(** What an observer of a node sees. *)
Definition core_obs (k : ncore) : nstate * outcome * failure := (k_state k, k_out k, k_fail k).
