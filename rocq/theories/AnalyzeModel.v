(** C80: the plan analyser (src/xml-parser/analyzePlan.cc): what it counts while it walks a plan and what it reports.  Built without RECORD_EXPRESSION_STATS.
    The report is modelled as the sequence of the numbers it prints, each with what it is said to be the number of; headings and blank lines are left out. *)
From Coq Require Import String List Arith Lia.
Import ListNotations.
(** A node of a finished plan, as seen through the accessors used (NodeImpl.hh 520-565): node id, type (PlexilNodeType.hh 51-60: 1 list, 2 command, 3 assignment, 4 update, 5 empty, 6 library call),
    the size of the vector of local variables, if it has one, which of its conditions m_conditions[i] are set (NodeImpl.hh 86-113) and its children.
    Simplification: every child's parent is the node it is in, which is how the parser builds plans. *)
Inductive node := Node (id : string) (ty : nat) (vars : option nat) (cond : nat -> bool) (kids : list node).
Definition nodeId (n : node) := let (i, _, _, _, _) := n in i.
Definition nodeType (n : node) := let (_, t, _, _, _) := n in t.
Definition variables (n : node) := let (_, _, v, _, _) := n in v.
Definition ownCondition (n : node) := let (_, _, _, c, _) := n in c.
Definition children (n : node) := let (_, _, _, _, k) := n in k.
(** NodeImpl.hh 86-113: ancestorExitIdx 0, ancestorInvariantIdx 1, ancestorEndIdx 2, ..., abortCompleteIdx 12, conditionIndexMax 13; PlexilNodeType.hh 51-60 *)
Definition conditionIndexMax := 13.
Definition NodeType_NodeList := 1.
Definition NodeType_LibraryNodeCall := 6.
Definition NodeType_error := 7.
(** analyzePlan.cc 53-77: the counters.  The fixed arrays are total functions whose bounds are checked where they are written; the two vectors are lists. *)
Record stats := mkStats { nodeCount : nat; typeCounts : nat -> nat; conditionCounts : nat -> nat; conditionCountNodes : nat -> nat; conditionCountListNodes : nat -> nat;
  childCounts : list nat; variableCounts : list nat; calledLibs : list (string * nat); callDepth : nat; maxCallDepth : nat }.
(** analyzePlan.cc 102-122 initializeStatistics: note that the vectors are emptied *)
Definition initializeStatistics : stats := mkStats 0 (fun _ => 0) (fun _ => 0) (fun _ => 0) (fun _ => 0) [] [] [] 0 0.
(** ++a[i] on a fixed array *)
Definition bump (a : nat -> nat) (i j : nat) : nat := if j =? i then S (a j) else a j.
(** ++v[i] on a vector; None: written past its end *)
Fixpoint bumpAt (v : list nat) (i : nat) : option (list nat) :=
  match v, i with
  | [], _ => None
  | x :: v, 0 => Some (S x :: v)
  | x :: v, S i => match bumpAt v i with Some v => Some (x :: v) | None => None end
  end.
(** std::vector::resize(n, 0) *)
Definition resize (v : list nat) (n : nat) : list nat := firstn n v ++ repeat 0 (n - length v).
(** analyzePlan.cc 79-84 incrementNodeChildCount and 86-91 incrementNodeVariableCount, which differ in the vector only *)
Definition incrementCount (v : list nat) (n : nat) : option (list nat) := bumpAt (if length v <=? n then resize v (n * 2) else v) n.
(** std::map::insert of a name that is not there: the map is kept in the order of the names *)
Fixpoint insertLib (libs : list (string * nat)) (name : string) : list (string * nat) :=
  match libs with
  | [] => [(name, 1)]
  | (m, k) :: r => if String.ltb name m then (name, 1) :: (m, k) :: r else (m, k) :: insertLib r name
  end.
(** analyzePlan.cc 93-100 incrementLibraryCallCount *)
Definition incrementLibraryCallCount (libs : list (string * nat)) (name : string) : list (string * nat) :=
  if existsb (fun e => String.eqb (fst e) name) libs
  then map (fun e => if String.eqb (fst e) name then (fst e, S (snd e)) else e) libs
  else insertLib libs name.
(** NodeImpl.cc 540-554 getCondition const: the three ancestor conditions are the parent's *)
Definition getCondition (parent : option node) (n : node) (i : nat) : bool :=
  if i <? 3 then match parent with Some p => ownCondition p i | None => false end else ownCondition n i.
(** analyzePlan.cc 124-140 getNodeCondition.  For the other indices NodeImpl::getCondition does not look at the parent. *)
Definition getNodeCondition (n : node) (i : nat) : bool :=
  if i <? 3 then match children n with [] => false | k :: _ => getCondition (Some n) k i end else getCondition None n i.
(** analyzePlan.cc 142-155 getConditionStatistics; None: written past the end of an array *)
Definition getConditionStatistics (s : stats) (n : node) : option stats :=
  let on := filter (getNodeCondition n) (seq 0 conditionIndexMax) in
  let cc := fold_left bump on (conditionCounts s) in
  let nConds := length on in
  if conditionIndexMax <=? nConds then None else
  let cn := bump (conditionCountNodes s) nConds in
  let cl := if nodeType n =? NodeType_NodeList then bump (conditionCountListNodes s) nConds else conditionCountListNodes s in
  Some (mkStats (nodeCount s) (typeCounts s) cc cn cl (childCounts s) (variableCounts s) (calledLibs s) (callDepth s) (maxCallDepth s)).
(** analyzePlan.cc 159-173: what getNodeStatistics does for the node itself, before its children *)
Definition countNode (s : stats) (n : node) : option stats :=
  if NodeType_error <=? nodeType n then None else
  match (match variables n with Some k => incrementCount (variableCounts s) k | None => Some (variableCounts s) end) with
  | None => None
  | Some vc =>
    match getConditionStatistics (mkStats (S (nodeCount s)) (bump (typeCounts s) (nodeType n)) (conditionCounts s) (conditionCountNodes s) (conditionCountListNodes s)
                                          (childCounts s) vc (calledLibs s) (callDepth s) (maxCallDepth s)) n with
    | None => None
    | Some s =>
      match incrementCount (childCounts s) (length (children n)) with
      | None => None
      | Some kc => Some (mkStats (nodeCount s) (typeCounts s) (conditionCounts s) (conditionCountNodes s) (conditionCountListNodes s) kc (variableCounts s) (calledLibs s) (callDepth s) (maxCallDepth s))
      end
    end
  end.
(** analyzePlan.cc 177-180: a call is counted and the depth raised *)
Definition enterCall (s : stats) (lib : string) : stats :=
  let d := S (callDepth s) in
  mkStats (nodeCount s) (typeCounts s) (conditionCounts s) (conditionCountNodes s) (conditionCountListNodes s) (childCounts s) (variableCounts s)
          (incrementLibraryCallCount (calledLibs s) lib) d (if maxCallDepth s <? d then d else maxCallDepth s).
(** analyzePlan.cc 185 *)
Definition leaveCall (s : stats) : stats :=
  mkStats (nodeCount s) (typeCounts s) (conditionCounts s) (conditionCountNodes s) (conditionCountListNodes s) (childCounts s) (variableCounts s) (calledLibs s) (callDepth s - 1) (maxCallDepth s).
(** analyzePlan.cc 157-193 getNodeStatistics; None: undefined behaviour (a write past the end of an array, or front() of an empty vector) *)
Fixpoint getNodeStatistics (n : node) (s : stats) : option stats :=
  let '(Node _ ty _ _ kids) := n in
  match countNode s n with
  | None => None
  | Some s =>
    if ty =? NodeType_LibraryNodeCall then
      match kids with
      | [] => None
      | k :: _ => match getNodeStatistics k (enterCall s (nodeId k)) with Some s => Some (leaveCall s) | None => None end
      end
    else (fix all (ks : list node) (s : stats) : option stats :=
            match ks with
            | [] => Some s
            | k :: ks => match getNodeStatistics k s with Some s => all ks s | None => None end
            end) kids s
  end.
(** One number of the report *)
Inductive line :=
| TotalNodes (n : nat)                  (* "n total nodes" *)
| OfType (n ty : nat)                   (* the name of the type and n *)
| WithVariables (n k : nat)             (* "n nodes with k variables" *)
| LeafNodes (n : nat)                   (* "n leaf nodes" *)
| WithOneChild (n : nat)                (* "n nodes with 1 child" *)
| WithChildren (n k : nat)              (* "n nodes with k children" *)
| WithCondition (n i : nat)             (* "n nodes with", the name of condition i *)
| WithConditions (n k : nat)            (* "n nodes with k conditions" *)
| ListsWithConditions (n k : nat)       (* the same, among the list nodes *)
| CallDepth (n : nat)                   (* "Maximum library call depth: n" *)
| Libraries (n : nat)                   (* "n libraries called:" *)
| Called (lib : string) (n : nat).      (* "lib called n times" *)
(** the loops of reportStatistics that leave zeros out: from index i *)
Fixpoint nonzero (mk : nat -> nat -> line) (v : list nat) (i : nat) : list line :=
  match v with [] => [] | n :: v => (if n =? 0 then [] else [mk n i]) ++ nonzero mk v (S i) end.
(** analyzePlan.cc 224-239 reportLibraryStatistics *)
Definition reportLibraryStatistics (s : stats) : list line :=
  match calledLibs s with
  | [] => []
  | libs => [CallDepth (maxCallDepth s); Libraries (length libs)] ++ map (fun e => Called (fst e) (snd e)) libs
  end.
(** analyzePlan.cc 272-323 reportStatistics; None: the vector of child counts is read past its end *)
Definition reportStatistics (s : stats) : option (list line) :=
  match childCounts s with
  | leaf :: one :: more => Some
      ([TotalNodes (nodeCount s)]
       ++ nonzero OfType (map (typeCounts s) (seq NodeType_NodeList (NodeType_error - NodeType_NodeList))) NodeType_NodeList
       ++ nonzero WithVariables (variableCounts s) 0
       ++ [LeafNodes leaf; WithOneChild one] ++ nonzero WithChildren more 2
       ++ map (fun i => WithCondition (conditionCounts s i) i) (seq 0 conditionIndexMax)
       ++ nonzero WithConditions (map (conditionCountNodes s) (seq 0 conditionIndexMax)) 0
       ++ nonzero ListsWithConditions (map (conditionCountListNodes s) (seq 0 conditionIndexMax)) 0
       ++ reportLibraryStatistics s)
  | _ => None
  end.
(** analyzePlan.cc 325-346 loadAndAnalyzePlan, from the parsed plan on *)
Definition analyze (root : node) : option (list line) :=
  match getNodeStatistics root initializeStatistics with Some s => reportStatistics s | None => None end.
