(** What the Luv viewer is sent: /repo/src/interfaces/LuvListener/LuvFormat.cc, LuvListener.cc.
    Simplifications:
    - characters are numbers; values and plans are the texts they print as (valueToString, xml_node::print);
    - a socket is what is written to it and the chunks read from it; send writes all or throws (then nothing more is sent). *)
From Coq Require Import ZArith List Bool Ascii String.
From Verif Require Import ValueModel FloatModel TypeModel UdpQueueModel LitModel.
Import ListNotations.
Open Scope Z_scope.

(** simpleStartTag, endTag, simpleTextElement: LuvFormat.cc:79-100. *)
Definition startTag (t : str) : str := 60 :: t ++ [62].
Definition endTag (t : str) : str := 60 :: 47 :: t ++ [62].
Definition textElement (t x : str) : str := startTag t ++ x ++ endTag t.
(** NodeImpl::ALL_CONDITIONS, NodeImpl.cc:53-69, in the order of NodeImpl::ConditionIndex. *)
Definition conditionNames : list str := map chars
  ["AncestorExitCondition"; "AncestorInvariantCondition"; "AncestorEndCondition"; "SkipCondition"; "StartCondition"; "PreCondition";
   "ExitCondition"; "InvariantCondition"; "EndCondition"; "PostCondition"; "RepeatCondition"; "ActionCompleteCondition"; "AbortCompleteCondition"]%string.
(** A transition as the listener sees it: the new state, outcome and failure type (0: none), what each condition prints as if the
    node has it, the ids of the node and its ancestors from the root down. *)
Record transition := { t_state : nat; t_outcome : nat; t_failure : nat; t_conds : list (option str); t_path : list str }.
(** formatConditions, :135-158. *)
Fixpoint formatConds (names : list str) (vs : list (option str)) : str :=
  match names, vs with
  | n :: ns, Some v :: r => textElement n v ++ formatConds ns r
  | _ :: ns, None :: r => formatConds ns r
  | _, _ => []
  end.
(** formatNodePath, :103-128. *)
Definition formatPath (p : list str) : str := startTag (chars "NodePath") ++ flat_map (textElement (chars "NodeId")) p ++ endTag (chars "NodePath").
(** formatTransition, :181-207. *)
Definition formatTransition (t : transition) : str :=
  startTag (chars "NodeStateUpdate") ++
  textElement (chars "NodeState") (nameOf stateNames (t_state t)) ++
  (if Nat.eqb (t_outcome t) 0 then [] else textElement (chars "NodeOutcome") (nameOf outcomeNames (t_outcome t))) ++
  (if Nat.eqb (t_failure t) 0 then [] else textElement (chars "NodeFailureType") (nameOf failureNames (t_failure t))) ++
  startTag (chars "Conditions") ++ formatConds conditionNames (t_conds t) ++ endTag (chars "Conditions") ++
  formatPath (t_path t) ++
  endTag (chars "NodeStateUpdate").
(** formatAssignment, :216-240. *)
Definition formatAssignment (name value : str) : str :=
  startTag (chars "Assignment") ++ startTag (chars "Variable") ++ textElement (chars "VariableName") name ++ endTag (chars "Variable") ++
  textElement (chars "Value") value ++ endTag (chars "Assignment").
(** formatPlanInfo, :165-172; formatLibrary, :257-264. *)
Definition formatPlanInfo (block : bool) : str :=
  startTag (chars "PlanInfo") ++ textElement (chars "ViewerBlocks") (printBoolean block) ++ endTag (chars "PlanInfo").
Definition formatLibrary (text : str) : str := startTag (chars "PlexilLibrary") ++ text ++ endTag (chars "PlexilLibrary").

(** The notifications, LuvListener.cc:121-185, and the messages they send. *)
Inductive levent := LTransition (t : transition) | LAssign (name value : str) | LPlan (text : str) | LLibrary (text : str).
Definition messages (block : bool) (e : levent) : list str :=
  match e with
  | LTransition t => [formatTransition t]
  | LAssign n v => [formatAssignment n v]
  | LPlan x => [formatPlanInfo block; x]
  | LLibrary x => [formatPlanInfo block; formatLibrary x]
  end.
(** sendMessage, :250-255, without waiting: each message and LUV_END_OF_MESSAGE. *)
Definition frame (m : str) : str := m ++ [4].
Definition stream (block : bool) (es : list levent) : str := flat_map frame (flat_map (messages block) es).

(** waitForAck, :258-268: chunks are read until one begins with LUV_END_OF_MESSAGE; [None]: the viewer is gone, operator>> throws. *)
Fixpoint waitForAck (chunks : list str) : option (list str) :=
  match chunks with [] => None | c :: r => if hd 0 c =? 4 then Some r else waitForAck r end.
(** Messages sent one after the other, blocking, given all the viewer will ever send: the messages sent, and whether the last was acknowledged. *)
Fixpoint sendAll (ms : list str) (chunks : list str) : list str * bool :=
  match ms with
  | [] => ([], true)
  | m :: r => match waitForAck chunks with
              | None => ([m], false)
              | Some c => let '(l, ok) := sendAll r c in (m :: l, ok)
              end
  end.
