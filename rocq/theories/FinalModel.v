(** Finalizers: /repo/src/utils/lifecycle-utils.c.
    Simplifications: malloc does not fail; a function is a number, and what it does to the list of finalizers is given by the numbers
    it registers itself; nobody runs the finalizers while they are being run. *)
From Coq Require Import List Arith.
Import ListNotations.

(** PLEXIL_OPSTACK_BUCKET_SIZE, :59; the memset leaves 0 in unused slots. *)
Definition bucketSize : nat := 7.
Definition bucket := nat -> nat.
Definition newBucket : bucket := fun _ => 0.
Definition bset (b : bucket) (i f : nat) : bucket := fun j => if Nat.eqb j i then f else b j.
(** struct plexil_opstack, :66-73: the buckets from head through prev, and insert_idx. *)
Record opstack := { o_buckets : list bucket; o_idx : nat }.
Definition emptyStack : opstack := {| o_buckets := []; o_idx := 0 |}.      (* :150 *)
(** plexil_opstack_push, :84-110. *)
Definition push (s : opstack) (f : nat) : opstack :=
  match o_buckets s with
  | [] => {| o_buckets := [bset newBucket 0 f]; o_idx := 1 |}
  | b :: r =>
    if Nat.eqb (o_idx s) bucketSize then {| o_buckets := bset newBucket 0 f :: b :: r; o_idx := 1 |}
    else {| o_buckets := bset b (o_idx s) f :: r; o_idx := S (o_idx s) |}
  end.

Section Run.
Variable adds : nat -> list nat.                                          (* what a finalizer registers when it runs *)
(** The inner loop, :129-132: bucket [head], found under the buckets in [s] allocated since it was taken; [k] buckets lie below it.
    The functions called, and the list after them. *)
Definition at_ (k : nat) (s : opstack) : bucket := nth k (rev (o_buckets s)) newBucket.
Fixpoint runBucket (k i : nat) (s : opstack) : list nat * opstack :=
  match i with
  | O => ([], s)
  | S i' => let f := at_ k s i' in
            let s' := fold_left push (adds f) s in
            let '(l, s'') := runBucket k i' s' in (f :: l, s'')
  end.
(** The outer loop, :124-138: list->head = head->prev leaves the [k] buckets below. *)
Fixpoint runFrom (k i : nat) (s : opstack) : list nat :=
  let '(l, s') := runBucket k i s in
  match k with
  | O => l
  | S k' => l ++ runFrom k' bucketSize {| o_buckets := skipn (length (o_buckets s') - k) (o_buckets s'); o_idx := o_idx s' |}
  end.
(** plexil_opstack_run, :112-147: in the end the list is empty. *)
Definition run (s : opstack) : list nat * opstack :=
  (match o_buckets s with [] => [] | _ => runFrom (length (o_buckets s) - 1) (o_idx s) s end, emptyStack).

(** A program: registrations (plexilAddFinalizer) and runs (plexilRunFinalizers), in order; what each run calls. *)
Inductive step := Add (f : nat) | Run.
Fixpoint program (l : list step) (s : opstack) : list (list nat) :=
  match l with
  | [] => []
  | Add f :: r => program r (push s f)
  | Run :: r => let '(t, s') := run s in t :: program r s'
  end.
End Run.
