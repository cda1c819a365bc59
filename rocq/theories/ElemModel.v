(** C81: what may be in a Node element (src/xml-parser/parseNode.cc, checkNode) and how the condition elements become the node's conditions (createConditions, NodeImpl::addUserCondition). *)
From Coq Require Import String Ascii List Arith Bool Lia.
Import ListNotations.
Open Scope string_scope.
Section Elements.
(** An expression, as createExpression makes it *)
Variable exp : Type.
(** A child of the Node element: its name (empty for text), whether the check made of its content passes (checkCondition 445-461 for conditions, 578-581 for the NodeId, checkVariableDeclarations, checkInterface,
    checkPriority, checkUsingMutex and checkNodeBody for the others, 698-732), and, for conditions, the expression and whether it is of type Boolean or unknown when it is made (1246-1247).
    Simplification: the check of the content and the test for what is a duplicate are independent, so that the order in which errors are found does not show: any of them is a ParserException. *)
Record elt := mkElt { tag : string; good : bool; expr : exp; boolean : bool }.
(** PlexilNodeType.hh 51-60 *)
Definition NodeType_Assignment := 3.
Definition NodeType_Empty := 5.
(** the first character; the empty string's is NUL *)
Definition first (s : string) : ascii := match s with String c _ => c | EmptyString => "000" end.
Definition at_ (n : nat) (s : string) : ascii := match get n s with Some c => c | None => "000" end.
(** The variables endXml, exitXml, ... (471-485): the names of those that are set *)
Definition slots := list string.
Definition isSet (x : string) (s : slots) : bool := existsb (String.eqb x) s.
(** what is done for an element that may come once: checked not to be a duplicate, then kept in its variable *)
Definition once (x : string) (s : slots) (ok : bool) : option slots := if negb (isSet x s) && ok then Some (x :: s) else None.
(** parseNode.cc 488-695, the body of the loop over the children; None: a ParserException *)
Definition checkElement (nodeType : nat) (e : elt) (s : slots) : option slots :=
  let t := tag e in
  let c := first t in
  if Ascii.eqb c "000" then None
  else if Ascii.eqb c "A" then if t =? "Assume" then Some s else None
  else if Ascii.eqb c "C" then if t =? "Comment" then Some s else None
  else if Ascii.eqb c "D" then if t =? "Desire" then Some s else None
  else if Ascii.eqb c "E" then
    if Nat.eqb (String.length t) 6 then if t =? "Expect" then Some s else None
    else if Nat.eqb (String.length t) 12 then if t =? "EndCondition" then once "EndCondition" s (good e) else None
    else if Nat.eqb (String.length t) 13 then if t =? "ExitCondition" then once "ExitCondition" s (good e) else None
    else None
  else if Ascii.eqb c "I" then
    if t =? "InvariantCondition" then once "InvariantCondition" s (good e)
    else if t =? "Interface" then once "Interface" s (good e) else None
  else if Ascii.eqb c "N" then
    if t =? "NodeId" then once "NodeId" s (good e)
    else if t =? "NodeBody" then once "NodeBody" s (good e) else None
  else if Ascii.eqb c "P" then
    if Nat.eqb (String.length t) 8 then if t =? "Priority" then (if Nat.eqb nodeType NodeType_Assignment then once "Priority" s (good e) else None) else None
    else if Nat.eqb (String.length t) 12 then if t =? "PreCondition" then once "PreCondition" s (good e) else None
    else if Nat.eqb (String.length t) 13 then if t =? "PostCondition" then once "PostCondition" s (good e) else None
    else None
  else if Ascii.eqb c "R" then if t =? "RepeatCondition" then once "RepeatCondition" s (good e) else None
  else if Ascii.eqb c "S" then
    if t =? "StartCondition" then once "StartCondition" s (good e)
    else if t =? "SkipCondition" then once "SkipCondition" s (good e) else None
  else if Ascii.eqb c "U" then if t =? "UsingMutex" then once "UsingMutex" s (good e) else None
  else if Ascii.eqb c "V" then if t =? "VariableDeclarations" then once "VariableDeclarations" s (good e) else None
  else None.
(** the loop, parseNode.cc 488 *)
Fixpoint checkElements (nodeType : nat) (es : list elt) (s : slots) : option slots :=
  match es with
  | [] => Some s
  | e :: es => match checkElement nodeType e s with Some s => checkElements nodeType es s | None => None end
  end.
(** parseNode.cc 463-737 checkNode.  conflict: whether checkVariableNameConflicts would find a conflict between the declarations and the interface (713-714); its check is made only if there is one of them.
    *nodeId (700-702) is what was checked of the NodeId element in the loop. *)
Definition checkNode (nodeType : nat) (es : list elt) (conflict : bool) : bool :=
  match checkElements nodeType es [] with
  | None => false
  | Some s =>
    isSet "NodeId" s
    && negb ((isSet "VariableDeclarations" s || isSet "Interface" s) && conflict)
    && (if Nat.eqb nodeType NodeType_Empty then negb (isSet "NodeBody" s) else isSet "NodeBody" s)
  end.
(** NodeImpl.hh 86-113 *)
Definition ALL_CONDITIONS : list string :=
  [ "AncestorExitCondition"; "AncestorInvariantCondition"; "AncestorEndCondition"; "SkipCondition"; "StartCondition"; "PreCondition"; "ExitCondition"; "InvariantCondition"; "EndCondition"; "PostCondition";
    "RepeatCondition"; "ActionCompleteCondition"; "AbortCompleteCondition" ].
Definition conditionIndexMax := 13.
(** NodeImpl.cc 141-144 getConditionName *)
Definition getConditionName (i : nat) : string := nth i ALL_CONDITIONS "".
(** NodeImpl.cc 72-139 getConditionIndex: first the guess, then the comparison with the name of the condition guessed *)
Definition guessCondition (s : string) : option nat :=
  let c := first s in
  if Ascii.eqb c "A" then
    if Nat.ltb (String.length s) 11 then None else
    let d := at_ 10 s in
    if Ascii.eqb d "d" then Some 2 else if Ascii.eqb d "e" then Some 12 else if Ascii.eqb d "i" then Some 0 else if Ascii.eqb d "l" then Some 12 else if Ascii.eqb d "v" then Some 1 else None
  else if Ascii.eqb c "E" then Some (if Ascii.eqb (at_ 1 s) "n" then 8 else 6)
  else if Ascii.eqb c "I" then Some 7
  else if Ascii.eqb c "P" then Some (if Ascii.eqb (at_ 1 s) "o" then 9 else 5)
  else if Ascii.eqb c "R" then Some 10
  else if Ascii.eqb c "S" then Some (if Ascii.eqb (at_ 1 s) "k" then 3 else 4)
  else None.
Definition getConditionIndex (s : string) : nat :=
  match guessCondition s with Some i => if s =? getConditionName i then i else conditionIndexMax | None => conditionIndexMax end.
(** The node's conditions m_conditions, null at first *)
Definition conditions := nat -> option exp.
Definition noConditions : conditions := fun _ => None.
(** NodeImpl.cc 385-397 addUserCondition; None: the assertion fails *)
Definition addUserCondition (cs : conditions) (name : string) (x : exp) : option conditions :=
  let which := getConditionIndex name in
  if Nat.leb 3 which && Nat.leb which 10 then Some (fun i => if Nat.eqb i which then Some x else cs i) else None.
(** parser-utils.cc 52-59 testSuffix *)
Definition testSuffix (suffix str : string) : bool :=
  if Nat.ltb (String.length str) (String.length suffix) then false else substring (String.length str - String.length suffix) (String.length suffix) str =? suffix.
(** parseNode.cc 1238-1259 createConditions, without the finalizeConditions at its end; None: an error *)
Fixpoint createConditions (es : list elt) (cs : conditions) : option conditions :=
  match es with
  | [] => Some cs
  | e :: es =>
    if testSuffix "Condition" (tag e) then
      if boolean e then match addUserCondition cs (tag e) (expr e) with Some cs => createConditions es cs | None => None end else None
    else createConditions es cs
  end.
End Elements.
Arguments mkElt {exp}. Arguments tag {exp}. Arguments good {exp}. Arguments expr {exp}. Arguments boolean {exp}.
Arguments checkElement {exp}. Arguments checkElements {exp}. Arguments checkNode {exp}. Arguments noConditions {exp}. Arguments addUserCondition {exp}. Arguments createConditions {exp}.
