(** Model of src/expr/Reservable.{hh,cc}: the object a node must hold in order
    to assign a variable, and (as the base class of Mutex) the plan's mutexes.
    Nodes are identified by natural numbers (pointer identity in the C++). *)
From Coq Require Import List PeanoNat Bool Lia Sorted.
Import ListNotations.

(** Reservable.hh members m_waiters, m_holder (Reservable.cc:38-42). *)
Record resv := { r_waiters : list nat; r_holder : option nat }.

(** Reservable.cc:38-42: default constructor. *)
Definition resv0 : resv := {| r_waiters := []; r_holder := None |}.

(** Reservable.cc:101-108 addWaitingNode: push_back unless std::find succeeds. *)
Definition addWaitingNode (n : nat) (r : resv) : resv :=
  if existsb (Nat.eqb n) (r_waiters r) then r
  else {| r_waiters := r_waiters r ++ [n]; r_holder := r_holder r |}.

(** std::find + erase of the first match (Reservable.cc:112-121). *)
Fixpoint eraseFirst (n : nat) (l : list nat) : list nat :=
  match l with
  | [] => []
  | x :: t => if Nat.eqb x n then t else x :: eraseFirst n t
  end.

(** Reservable.cc:112-121 removeWaitingNode. *)
Definition removeWaitingNode (n : nat) (r : resv) : resv :=
  {| r_waiters := eraseFirst n (r_waiters r); r_holder := r_holder r |}.

(** Reservable.cc:56-74 acquire: the new object state and the return value. *)
Definition acquire (n : nat) (r : resv) : resv * bool :=
  match r_holder r with
  | Some _ => (addWaitingNode n r, false)
  | None => (removeWaitingNode n {| r_waiters := r_waiters r; r_holder := Some n |}, true)
  end.

(** Reservable.cc:79-97 release: the new object state and the nodes whose
    notifyResourceAvailable() is called, in call order.  (NodeImpl's
    notifyResourceAvailable, NodeImpl.cc:704-733, only enqueues the node; it
    does not touch the Reservable.) *)
Definition release (n : nat) (r : resv) : resv * list nat :=
  match r_holder r with
  | None => (r, [])
  | Some h =>
      if Nat.eqb h n
      then ({| r_waiters := r_waiters r; r_holder := None |}, r_waiters r)
      else (r, [])
  end.

(** The public operations and what the caller observes of each. *)
Inductive rop := Acq (n : nat) | Rel (n : nat) | AddW (n : nat) | RemW (n : nat).
Inductive robs := OGranted | ORefused | ONotified (l : list nat) | ODone.

Definition rstep (o : rop) (r : resv) : resv * robs :=
  match o with
  | Acq n => let (r', b) := acquire n r in (r', if b then OGranted else ORefused)
  | Rel n => let (r', l) := release n r in (r', ONotified l)
  | AddW n => (addWaitingNode n r, ODone)
  | RemW n => (removeWaitingNode n r, ODone)
  end.

(** A history: the sequence of calls together with what each returned. *)
Fixpoint rrun (ops : list rop) (r : resv) : resv * list (rop * robs) :=
  match ops with
  | [] => (r, [])
  | o :: t =>
      let (r1, b) := rstep o r in
      let (r2, h) := rrun t r1 in (r2, (o, b) :: h)
  end.
