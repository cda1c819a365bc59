(** Model of the input queues: src/intfc/QueueEntry.cc, src/app-framework/SimpleInputQueue.cc,
    src/app-framework/SerializedInputQueue.cc.

    QueueEntry objects are natural numbers (addresses); null is [None].  The 'next' members form
    one heap ([s_nxt]), the other members another ([contents], below).  Entries are deleted only
    by the queue's destructor (not modelled).  The anonymous union is modelled by the member
    last written. *)
From Verif Require Export ValueModel.
From Coq Require Export List Arith Bool Lia.
Export ListNotations.
Open Scope nat_scope.

(** QueueEntry.hh 41-57. *)
Inductive qtype :=
| Q_UNINITED | Q_LOOKUP | Q_COMMAND_ACK | Q_COMMAND_RETURN | Q_COMMAND_ABORT | Q_UPDATE_ACK | Q_ADD_PLAN
| Q_RECEIVE_MSG | Q_ACCEPT_MSG | Q_RELEASE_MSG_HANDLE | Q_MSG_QUEUE_EMPTY | Q_MARK.
(** The union, QueueEntry.hh 66-73: objects outside (commands, messages, plans, updates) are
    identified by numbers. *)
Inductive upay :=
| UNull | UCommand (c : nat) | UMessage (m : nat) | UPlan (p : nat) | UState (s : state) | UUpdate (u : nat) | USeq (n : nat).
Record content := mkC { c_typ : qtype; c_pay : upay; c_val : val }.

(** QueueEntry(), QueueEntry.cc 34-40, and reset(), 42-50. *)
Definition blank : content := mkC Q_UNINITED UNull (VUnk UNKNOWN_TYPE).

(** The initFor... members, QueueEntry.cc 52-148: each overwrites the members named only. *)
Definition initForLookup (e : content) (s : state) (v : val) := mkC Q_LOOKUP (UState s) v.
Definition initForCommandAck (e : content) (c : nat) (h : Z) := mkC Q_COMMAND_ACK (UCommand c) (VHandle h).
Definition initForCommandReturn (e : content) (c : nat) (v : val) := mkC Q_COMMAND_RETURN (UCommand c) v.
Definition initForCommandAbort (e : content) (c : nat) (b : bool) := mkC Q_COMMAND_ABORT (UCommand c) (VBool b).
Definition initForUpdateAck (e : content) (u : nat) (b : bool) := mkC Q_UPDATE_ACK (UUpdate u) (VBool b).
Definition initForAddPlan (e : content) (p : nat) := mkC Q_ADD_PLAN (UPlan p) (c_val e).
Definition initForReceiveMessage (e : content) (m : nat) := mkC Q_RECEIVE_MSG (UMessage m) (c_val e).
Definition initForAcceptMessage (e : content) (m : nat) (handle : list Z) := mkC Q_ACCEPT_MSG (UMessage m) (c_val e).
Definition initForReleaseMessageHandle (e : content) (handle : list Z) := mkC Q_RELEASE_MSG_HANDLE (c_pay e) (VStr handle).
Definition initForMessageQueueEmpty (e : content) := mkC Q_MSG_QUEUE_EMPTY (c_pay e) (c_val e).
Definition initForMark (e : content) (n : nat) := mkC Q_MARK (USeq n) (c_val e).

(** ** The queue's members: m_queueGet, m_queuePut, m_freeList (SimpleInputQueue.hh 78-80), the
    'next' members of all entries, and the number of entries created so far. *)
Record shared := mkS { s_get : option nat; s_put : option nat; s_free : option nat; s_nxt : nat -> option nat; s_new : nat }.
Definition upd {A} (f : nat -> A) (i : nat) (x : A) : nat -> A := fun j => if Nat.eqb j i then x else f j.
Definition setNxt s p v := mkS (s_get s) (s_put s) (s_free s) (upd (s_nxt s) p v) (s_new s).
Definition setGet s v := mkS v (s_put s) (s_free s) (s_nxt s) (s_new s).
Definition setPut s v := mkS (s_get s) v (s_free s) (s_nxt s) (s_new s).
Definition setFree s v := mkS (s_get s) (s_put s) v (s_nxt s) (s_new s).
(** new QueueEntry: an address never used before; the constructor clears 'next'. *)
Definition fresh s := mkS (s_get s) (s_put s) (s_free s) (upd (s_nxt s) (s_new s) None) (S (s_new s)).
(** Constructor, SimpleInputQueue.cc 34-40. *)
Definition shared0 : shared := mkS None None None (fun _ => None) 0.

(** ** SimpleInputQueue, one call at a time.  None: a failed assertion. *)
(** isEmpty, 57-60. *)
Definition isEmpty s : bool := match s_get s with None => true | Some _ => false end.
(** allocate, 62-70; the boolean tells whether the entry is new. *)
Definition allocate s : shared * nat * bool :=
  match s_free s with
  | Some p => (setFree s (s_nxt s p), p, false)
  | None => (fresh s, s_new s, true)
  end.
(** release, 72-78, the part acting on the queue (reset() on the contents: [blank]). *)
Definition release s (p : nat) : shared := setFree (setNxt (setNxt s p None) p (s_free s)) (Some p).
(** put, 80-89. *)
Definition put s (p : nat) : shared :=
  let s1 := setNxt s p None in
  let s2 := match s_put s1 with Some q => setNxt s1 q (Some p) | None => s1 end in
  let s3 := setPut s2 (Some p) in
  match s_get s3 with None => setGet s3 (Some p) | Some _ => s3 end.
Definition oeq (a b : option nat) : bool := match a, b with Some x, Some y => Nat.eqb x y | None, None => true | _, _ => false end.
(** get, 91-102. *)
Definition get s : option (shared * option nat) :=
  match s_get s with
  | None => Some (s, None)
  | Some p =>
      let s1 := setGet s (s_nxt s p) in
      match s_get s1 with
      | None => if oeq (s_put s1) (Some p) then Some (setPut (setGet s1 None) None, Some p) else None
      | Some _ => Some (s1, Some p)
      end
  end.
(** flush, 104-112; [n] bounds the number of rounds; returns the entries released. *)
Fixpoint flushLoop (n : nat) s : shared * list nat :=
  match n, s_get s with
  | S k, Some p => let r := flushLoop k (release (setGet s (s_nxt s p)) p) in (fst r, p :: snd r)
  | _, _ => (s, [])
  end.
Definition flush s : shared * list nat :=
  let r := flushLoop (S (s_new s)) s in (setPut (fst r) None, snd r).

(** What the callers do: an entry is used (initialised, put, released) by whoever allocated or
    got it last, until it is put or released. *)
Inductive op :=
| OAlloc | OInit (p : nat) (c : content) | OPut (p : nat) | OGet | ORel (p : nat) | OFlush.
(** Observations: calls with their arguments and results, and the entry's contents at that time. *)
Inductive obs :=
| BAlloc (p : nat) (c : content) | BPut (p : nat) (c : content) | BGet (r : option (nat * content)) | BRel (p : nat)
| BFlush | BEmpty (b : bool).
Record sq := mkSq { q_s : shared; q_c : nat -> content; q_own : list nat }.
Definition del (p : nat) (l : list nat) : list nat := filter (fun x => negb (Nat.eqb x p)) l.
Definition opStep (o : op) (q : sq) : option (sq * list obs) :=
  match o with
  | OAlloc => let '(s, p, new) := allocate (q_s q) in
              let c := if new then upd (q_c q) p blank else q_c q in
              Some (mkSq s c (p :: q_own q), [BAlloc p (c p)])
  | OInit p c => Some (mkSq (q_s q) (upd (q_c q) p c) (q_own q), [])
  | OPut p => Some (mkSq (put (q_s q) p) (q_c q) (del p (q_own q)), [BPut p (q_c q p)])
  | OGet => match get (q_s q) with
            | None => None
            | Some (s, None) => Some (mkSq s (q_c q) (q_own q), [BGet None])
            | Some (s, Some p) => Some (mkSq s (q_c q) (p :: q_own q), [BGet (Some (p, q_c q p))])
            end
  | ORel p => Some (mkSq (release (q_s q) p) (upd (q_c q) p blank) (del p (q_own q)), [BRel p])
  | OFlush => let r := flush (q_s q) in
              Some (mkSq (fst r) (fun x => if existsb (Nat.eqb x) (snd r) then blank else q_c q x) (q_own q), [BFlush])
  end.
Definition allowed (q : sq) (o : op) : Prop :=
  match o with OInit p _ | OPut p | ORel p => In p (q_own q) | _ => True end.
Definition sq0 : sq := mkSq shared0 (fun _ => blank) [].

(** ** SerializedInputQueue: threads, the mutex, and the statements of each method
    (SerializedInputQueue.cc 64-137) as separate steps. *)
Inductive pc :=
| Idle                                    (* outside the queue *)
| A0 | A1 | A2 (r : option nat) | A3 (r : nat)                    (* allocate, 72-83 *)
| R0 (p : nat) | R1 (p : nat) | R2 (p : nat) | R3 (p : nat) | R4 (p : nat)   (* release, 85-94 *)
| P0 (p : nat) | P1 (p : nat) | P2 (p : nat) | P3 (p : nat) | P4 (p : nat) | P5 (p : nat)  (* put, 96-108 *)
| G0 | G1 | G2 (r : nat) | G3 (r : nat) | G4 (r : nat) | G5 (r : option nat)   (* get, 110-124 *)
| E0 | E1                                 (* isEmpty, 64-70 *)
| F0 | F1 | F2 (t : nat) | F3 (t : nat) | F4                      (* flush, 126-137 *)
| Dead.                                   (* failed assertion *)
(** Whole system: members of the queue, mutex holder, contents, per thread its position and the
    entries it may use; and the observations in the order in which the mutex was released. *)
Record sys := mkSys {
  y_s : shared; y_lock : option nat; y_c : nat -> content; y_pc : nat -> pc; y_own : nat -> list nat; y_tr : list (nat * obs) }.
Inductive act :=
| CAlloc | CInit (p : nat) (c : content) | CPut (p : nat) | CRel (p : nat) | CGet | CEmpty | CFlush   (* calls, from Idle *)
| Go.                                                                                          (* next statement *)
Definition at_ y t p := mkSys (y_s y) (y_lock y) (y_c y) (upd (y_pc y) t p) (y_own y) (y_tr y).
Definition withS y s := mkSys s (y_lock y) (y_c y) (y_pc y) (y_own y) (y_tr y).
Definition withC y c := mkSys (y_s y) (y_lock y) c (y_pc y) (y_own y) (y_tr y).
Definition lock y t (p : pc) : option sys :=
  match y_lock y with Some _ => None | None => Some (at_ (mkSys (y_s y) (Some t) (y_c y) (y_pc y) (y_own y) (y_tr y)) t p) end.
Definition unlock y t (own : list nat) (b : obs) : sys :=
  at_ (mkSys (y_s y) None (y_c y) (y_pc y) (upd (y_own y) t own) (y_tr y ++ [(t, b)])) t Idle.
(** One step of thread t; None: not possible (blocked, or a call it may not make). *)
Definition mstep (y : sys) (t : nat) (a : act) : option sys :=
  let s := y_s y in
  match a, y_pc y t with
  | CAlloc, Idle => Some (at_ y t A0)
  | CInit p c, Idle => if existsb (Nat.eqb p) (y_own y t) then Some (withC y (upd (y_c y) p c)) else None
  | CPut p, Idle => if existsb (Nat.eqb p) (y_own y t) then Some (at_ y t (P0 p)) else None
  | CRel p, Idle => if existsb (Nat.eqb p) (y_own y t) then Some (at_ y t (R0 p)) else None
  | CGet, Idle => Some (at_ y t G0)
  | CEmpty, Idle => Some (at_ y t E0)
  | CFlush, Idle => Some (at_ y t F0)
  | Go, A0 => lock y t A1
  | Go, A1 => Some (at_ y t (A2 (s_free s)))
  | Go, A2 (Some r) => Some (at_ (withS y (setFree s (s_nxt s r))) t (A3 r))
  | Go, A2 None => Some (at_ (withC (withS y (fresh s)) (upd (y_c y) (s_new s) blank)) t (A3 (s_new s)))
  | Go, A3 r => Some (unlock y t (r :: y_own y t) (BAlloc r (y_c y r)))
  | Go, R0 p => lock y t (R1 p)
  | Go, R1 p => Some (at_ (withC (withS y (setNxt s p None)) (upd (y_c y) p blank)) t (R2 p))
  | Go, R2 p => Some (at_ (withS y (setNxt s p (s_free s))) t (R3 p))
  | Go, R3 p => Some (at_ (withS y (setFree s (Some p))) t (R4 p))
  | Go, R4 p => Some (unlock y t (del p (y_own y t)) (BRel p))
  | Go, P0 p => lock y t (P1 p)
  | Go, P1 p => Some (at_ (withS y (setNxt s p None)) t (P2 p))
  | Go, P2 p => Some (at_ (withS y (match s_put s with Some q => setNxt s q (Some p) | None => s end)) t (P3 p))
  | Go, P3 p => Some (at_ (withS y (setPut s (Some p))) t (P4 p))
  | Go, P4 p => Some (at_ (withS y (match s_get s with None => setGet s (Some p) | Some _ => s end)) t (P5 p))
  | Go, P5 p => Some (unlock y t (del p (y_own y t)) (BPut p (y_c y p)))
  | Go, G0 => lock y t G1
  | Go, G1 => Some (at_ y t (match s_get s with None => G5 None | Some r => G2 r end))
  | Go, G2 r => Some (at_ (withS y (setGet s (s_nxt s r))) t (G3 r))
  | Go, G3 r => Some (at_ y t (match s_get s with Some _ => G5 (Some r) | None => if oeq (s_put s) (Some r) then G4 r else Dead end))
  | Go, G4 r => Some (at_ (withS y (setPut (setGet s None) None)) t (G5 (Some r)))
  | Go, G5 None => Some (unlock y t (y_own y t) (BGet None))
  | Go, G5 (Some r) => Some (unlock y t (r :: y_own y t) (BGet (Some (r, y_c y r))))
  | Go, E0 => lock y t E1
  | Go, E1 => Some (unlock y t (y_own y t) (BEmpty (isEmpty s)))
  | Go, F0 => lock y t F1
  | Go, F1 => Some (at_ y t (match s_get s with Some p => F2 p | None => F4 end))
  | Go, F2 p => Some (at_ (withS y (setGet s (s_nxt s p))) t (F3 p))
  | Go, F3 p => lock y t (R1 p)    (* release(temp) locks the mutex this thread already holds *)
  | Go, F4 => Some (unlock (withS y (setPut s None)) t (y_own y t) BFlush)
  | _, _ => None
  end.
Definition sys0 : sys := mkSys shared0 None (fun _ => blank) (fun _ => Idle) (fun _ => []) [].
Inductive runs : list (nat * act) -> sys -> Prop :=
| runs_nil : runs [] sys0
| runs_snoc h y t a y' : runs h y -> mstep y t a = Some y' -> runs (h ++ [(t, a)]) y'.
