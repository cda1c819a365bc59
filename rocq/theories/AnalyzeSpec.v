(** C80, in terms of the plan tree: what every number in the report of the plan analyser should be.  Nothing here is used by AnalyzeModel.v. *)
From Coq Require Import String List Arith Lia Bool.
From Verif Require Import AnalyzeModel.
Import ListNotations.
(** All nodes of a plan, each followed by those below it *)
Fixpoint nodes (n : node) : list node := let '(Node _ _ _ _ kids) := n in n :: flat_map nodes kids.
(** How many nodes of the plan are such that ... *)
Definition howMany (p : node -> bool) (root : node) : nat := length (filter p (nodes root)).
Definition isCall (n : node) : bool := nodeType n =? 6.
(** A library call has one child, the library node *)
Definition callsLibrary (lib : string) (n : node) : bool := isCall n && existsb (fun k => String.eqb (nodeId k) lib) (children n).
(** The conditions 0, 1 and 2 (ancestor exit, invariant, end) are those a node imposes on its children; the others are about the node itself. *)
Definition hasCondition (i : nat) (n : node) : bool := ownCondition n i && (negb (i <? 3) || negb (length (children n) =? 0)).
Definition conditionsOf (n : node) : nat := length (filter (fun i => hasCondition i n) [0;1;2;3;4;5;6;7;8;9;10;11;12]).
Definition hasVariables (k : nat) (n : node) : bool := match variables n with Some v => v =? k | None => false end.
(** The most library calls that are one inside the other *)
Fixpoint nestedCalls (n : node) : nat := let '(Node _ ty _ _ kids) := n in (if ty =? 6 then 1 else 0) + list_max (map nestedCalls kids).
(** What a line of the report says is true of the plan, and it is to be there: lines with a zero are left out, except for leaves, single children and the conditions. *)
Definition says (root : node) (l : line) : Prop :=
  match l with
  | TotalNodes n => n = length (nodes root)
  | OfType n ty => 0 < n /\ n = howMany (fun x => nodeType x =? ty) root
  | WithVariables n k => 0 < n /\ n = howMany (hasVariables k) root
  | LeafNodes n => n = howMany (fun x => length (children x) =? 0) root
  | WithOneChild n => n = howMany (fun x => length (children x) =? 1) root
  | WithChildren n k => 0 < n /\ 2 <= k /\ n = howMany (fun x => length (children x) =? k) root
  | WithCondition n i => i <= 12 /\ n = howMany (hasCondition i) root
  | WithConditions n k => 0 < n /\ n = howMany (fun x => conditionsOf x =? k) root
  | ListsWithConditions n k => 0 < n /\ n = howMany (fun x => (nodeType x =? 1) && (conditionsOf x =? k)) root
  | CallDepth n => 0 < n /\ n = nestedCalls root
  | Libraries n => 0 < n /\ exists libs, NoDup libs /\ length libs = n /\ forall lib, In lib libs <-> 0 < howMany (callsLibrary lib) root
  | Called lib n => 0 < n /\ n = howMany (callsLibrary lib) root
  end.
(** What the parser and the nodes' constructors see to: every node has one of the six types; a library call has one child; only commands and assignments, which have no children,
    have an abort-complete condition (12). *)
Definition planNode (n : node) : Prop :=
  1 <= nodeType n <= 6 /\ (nodeType n = 6 -> length (children n) = 1) /\ (children n <> [] -> ownCondition n 12 = false).
Definition plan (root : node) : Prop := Forall planNode (nodes root).
(** The first node that has a vector of variables has something in it *)
Definition firstVariables (root : node) : Prop :=
  forall before n after k, nodes root = before ++ n :: after -> (forall b, In b before -> variables b = None) -> variables n = Some k -> 0 < k.
