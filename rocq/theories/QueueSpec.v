(** What queue operations mean, in terms of lists only. *)
From Verif Require Export QueueModel.

(** The item pointers starting at [p] spell out the list [l] and end with null. *)
Fixpoint chain (h : heap) (p : option nat) (l : list nat) : Prop :=
  match l with
  | [] => p = None
  | x :: l' => p = Some x /\ chain h (h x) l'
  end.
(** Queue [q] in heap [h] holds exactly [l], in order. *)
Record repr (h : heap) (q : lq) (l : list nat) : Prop := {
  rp_chain : chain h (q_head q) l;
  rp_tail : q_tail q = match rev l with [] => None | x :: _ => Some x end;
  rp_count : q_count q = length l }.

(** Operations on a family of queues (numbered) sharing the items. *)
Inductive qop : Type :=
| OPush (i x : nat) | OInsert (i x : nat) | OPop (i : nat) | ORemove (i x : nat)
| ORemoveIf (i : nat) (p : nat -> bool) | OClear (i : nat).

(** Remove the first element satisfying [p]. *)
Fixpoint drop1 (p : nat -> bool) (l : list nat) : list nat :=
  match l with [] => [] | x :: l' => if p x then l' else x :: drop1 p l' end.
(** Insert [x] in front of the first element it is less than. *)
Fixpoint ins (lt : nat -> nat -> bool) (x : nat) (l : list nat) : list nat :=
  match l with [] => [x] | y :: l' => if lt x y then x :: l else y :: ins lt x l' end.

Definition lset (ls : nat -> list nat) (i : nat) (l : list nat) : nat -> list nat :=
  fun j => if Nat.eqb j i then l else ls j.
(** The operations on mathematical lists. *)
Definition aop (lt : nat -> nat -> bool) (ls : nat -> list nat) (o : qop) : nat -> list nat :=
  match o with
  | OPush i x => lset ls i (ls i ++ [x])
  | OInsert i x => lset ls i (ins lt x (ls i))
  | OPop i => lset ls i (tl (ls i))
  | ORemove i x => lset ls i (drop1 (Nat.eqb x) (ls i))
  | ORemoveIf i p => lset ls i (drop1 p (ls i))
  | OClear i => lset ls i []
  end.
(** Discipline: only items that are in no queue are pushed or inserted. *)
Definition allowed (ls : nat -> list nat) (o : qop) : Prop :=
  match o with
  | OPush _ x | OInsert _ x => forall j, ~ In x (ls j)
  | _ => True
  end.
