(** C81: what the PLEXIL schema says may be in a Node element, and which condition each element gives. *)
From Coq Require Import String Ascii List Arith Bool Lia.
From Verif Require Import ElemModel.
Import ListNotations.
Open Scope string_scope.
Open Scope list_scope.
(** Elements that may come any number of times and mean nothing to the executive *)
Definition remarks : list string := ["Assume"; "Comment"; "Desire"; "Expect"].
(** The eight conditions *)
Definition conditionNames : list string := ["SkipCondition"; "StartCondition"; "PreCondition"; "ExitCondition"; "InvariantCondition"; "EndCondition"; "PostCondition"; "RepeatCondition"].
(** Elements that may come once *)
Definition singles : list string := ["NodeId"; "NodeBody"; "VariableDeclarations"; "Interface"; "UsingMutex"; "Priority"] ++ conditionNames.
Section Spec.
Variable exp : Type.
Definition has (es : list (elt exp)) (name : string) : Prop := exists e, In e es /\ tag e = name.
(** No two elements of the name *)
Definition atMostOne (es : list (elt exp)) (name : string) : Prop := forall a x b y c, es = a ++ x :: b ++ y :: c -> tag x = name -> tag y <> name.
(** A well-formed Node element of the type, 3 being an assignment and 5 an empty node *)
Record conforms (nodeType : nat) (es : list (elt exp)) (conflict : bool) : Prop := mkConforms {
  known : forall e, In e es -> In (tag e) (remarks ++ singles);
  single : forall name, In name singles -> atMostOne es name;
  content : forall e, In e es -> In (tag e) singles -> good e = true;
  priority : has es "Priority" -> nodeType = 3;
  id : has es "NodeId";
  body : nodeType = 5 <-> ~ has es "NodeBody";
  names : conflict = true -> ~ has es "VariableDeclarations" /\ ~ has es "Interface" }.
End Spec.
Arguments has {exp}. Arguments atMostOne {exp}. Arguments conforms {exp}.
