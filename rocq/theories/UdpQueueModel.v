(** Pairing of received UDP messages with waiting commands: /repo/src/interfaces/UdpAdapter/MessageQueueMap.cc (the file in
    IpcAdapter is the same), and its use in UdpAdapter.cc (executeReceiveCommandCommand, executeGetParameterCommand,
    abortReceiveCommandCommand, handleUdpMessage).
    Simplifications: a Command is a number; strings are lists of character codes; the map from names to
    queues is an association list; calls of the exec interface are the output; notifyOfExternalEvent is left
    out; the datagram counter is unbounded; whether the listener could be opened is a parameter (see UdpLoopModel.v). *)
From Coq Require Import ZArith List Bool DecimalString Ascii String DecimalNat.
From Verif Require Import ValueModel TypeModel UdpModel.
Import ListNotations.
Open Scope Z_scope.

Definition str_eq_dec : forall a b : str, {a = b} + {a <> b} := list_eq_dec Z.eq_dec.
Definition chars (s : string) : str := map (fun c => Z.of_nat (nat_of_ascii c)) (list_ascii_of_string s).
(** operator<<(ostream, int) of a number that is not negative. *)
Definition decimal (n : nat) : str := chars (NilEmpty.string_of_uint (Nat.to_uint n)).

(** ** MessageQueueMap: [V] is the type of values; the queues never look at them. *)
Definition cmd : Type := nat.
(** PairingQueue, MessageQueueMap.hh:109-121. *)
Record pairq {V : Type} : Type := mkPairq { rq : list cmd; mq : list V }.
Arguments pairq : clear implicits. Arguments mkPairq {V}.
Record qmap {V : Type} : Type := mkQmap { q_map : list (str * pairq V); q_dup : bool }.
Arguments qmap : clear implicits. Arguments mkQmap {V}.
Definition qinit {V} (dup : bool) : qmap V := {| q_map := []; q_dup := dup |}.
Fixpoint qget {V} (m : list (str * pairq V)) (k : str) : option (pairq V) :=
  match m with [] => None | (k', q) :: r => if str_eq_dec k k' then Some q else qget r k end.
Fixpoint qset {V} (m : list (str * pairq V)) (k : str) (q : pairq V) : list (str * pairq V) :=
  match m with [] => [(k, q)] | (k', q') :: r => if str_eq_dec k k' then (k', q) :: r else (k', q') :: qset r k q end.
(** ensureQueue, MessageQueueMap.cc:131-145. *)
Definition ensureQueue {V} (m : list (str * pairq V)) (k : str) : pairq V :=
  match qget m k with Some q => q | None => {| rq := []; mq := [] |} end.
(** A call of handleCommandReturn, with the name of the queue it comes from. *)
Definition ret (V : Type) : Type := str * cmd * V.
(** updateQueue, :150-169. *)
Fixpoint pairUp {V} (k : str) (r : list cmd) (m : list V) : list (ret V) * pairq V :=
  match r, m with
  | c :: r', v :: m' => let '(o, q) := pairUp k r' m' in ((k, c, v) :: o, q)
  | _, _ => ([], {| rq := r; mq := m |})
  end.
Definition updateQueue {V} (s : qmap V) (k : str) (q : pairq V) : list (ret V) * qmap V :=
  let '(o, q') := pairUp k (rq q) (mq q) in (o, {| q_map := qset (q_map s) k q'; q_dup := q_dup s |}).
(** addRecipient, :60-66. *)
Definition addRecipient {V} (s : qmap V) (k : str) (c : cmd) : list (ret V) * qmap V :=
  let q := ensureQueue (q_map s) k in updateQueue s k {| rq := rq q ++ [c]; mq := mq q |}.
(** addMessage, :73-101. *)
Definition addMessage {V} (s : qmap V) (k : str) (v : V) : list (ret V) * qmap V :=
  let q := ensureQueue (q_map s) k in
  updateQueue s k {| rq := rq q; mq := (if q_dup s then mq q else []) ++ [v] |}.
(** setAllowDuplicateMessages, :115-118. *)
Definition setAllowDuplicateMessages {V} (s : qmap V) (b : bool) : qmap V := {| q_map := q_map s; q_dup := b |}.

Inductive qop {V : Type} : Type := QRecip (k : str) (c : cmd) | QMsg (k : str) (v : V) | QDup (b : bool).
Arguments qop : clear implicits.
Definition qstep {V} (s : qmap V) (o : qop V) : list (ret V) * qmap V :=
  match o with
  | QRecip k c => addRecipient s k c
  | QMsg k v => addMessage s k v
  | QDup b => ([], setAllowDuplicateMessages s b)
  end.
Fixpoint qrun {V} (s : qmap V) (l : list (qop V)) : list (ret V) * qmap V :=
  match l with
  | [] => ([], s)
  | o :: r => let '(a, s1) := qstep s o in let '(b, s2) := qrun s1 r in (a ++ b, s2)
  end.

(** ** UdpAdapter *)
(** formatMessageName, UdpAdapter.cc:86-98. *)
Definition commandKey (name : str) : str := chars "__COMMAND__" ++ name ++ chars "_" ++ decimal 0.
Definition paramKey (label : str) (id : nat) : str := chars "__PARAMETER__" ++ label ++ chars "_" ++ decimal id.
(** msg_label, :838-840. *)
Definition msgLabel (name : str) (counter : nat) : str := name ++ chars ":msg_parameter:" ++ decimal counter.
(** msgName.substr(0, msgName.find(":")), :412-414. *)
Fixpoint baseName (s : str) : str := match s with [] => [] | c :: r => if c =? 58 then [] else c :: baseName r end.

Definition defs : Type := list (str * udpMsg).
Fixpoint findDef (d : defs) (n : str) : option udpMsg :=
  match d with [] => None | (n', m) :: r => if str_eq_dec n n' then Some m else findDef r n end.
Record ada : Type := mkAda { a_q : qmap tval; a_counter : nat }.
Definition ainit : ada := {| a_q := qinit true; a_counter := 1 |}.
Inductive ack : Type := AckSent | AckFailed | AckAborted.
Inductive aop : Type :=
| ARecv (c : cmd) (args : list (option tval)) (opened : bool)    (* ReceiveCommand; [opened]: openListener succeeded *)
| AGet (c : cmd) (args : list (option tval))                     (* GetParameter *)
| AAbort (c : cmd)                                               (* abort of a ReceiveCommand whose listener is closed *)
| ADgram (name : str) (m : udpMsg) (buf : list Z).               (* the event thread calls handleUdpMessage *)

(** The second argument of GetParameter, :428-465. *)
Definition paramIndex (args : list (option tval)) (params : nat) : option nat :=
  match args with
  | [_] => Some 0%nat
  | [_; Some (TVs (SI id))] => if (id <? 0) || (Z.of_nat params <=? id) then None else Some (Z.to_nat id)
  | _ => None
  end.
(** executeGetParameterCommand, :383-472: message label and index, when not refused. *)
Definition getRequest (d : defs) (args : list (option tval)) : option (str * nat) :=
  match args with
  | Some (TVs (SS s)) :: _ =>
      match findDef d (baseName s) with
      | Some m => match paramIndex args (length (m_params m)) with Some i => Some (s, i) | None => None end
      | None => None
      end
  | _ => None
  end.
(** executeReceiveCommandCommand, :297-339: the message name. *)
Definition recvRequest (args : list (option tval)) : option str :=
  match args with [Some (TVs (SS s))] => Some s | _ => None end.
(** The loop of handleUdpMessage, :848-991. *)
Fixpoint queueParams (s : qmap tval) (label : str) (i : nat) (vs : list tval) : list (ret tval) * qmap tval :=
  match vs with
  | [] => ([], s)
  | v :: r => let '(a, s1) := addMessage s (paramKey label i) v in
              let '(b, s2) := queueParams s1 label (S i) r in (a ++ b, s2)
  end.
Definition astep (d : defs) (s : ada) (o : aop) : (list (cmd * ack) * list (ret tval)) * ada :=
  match o with
  | ARecv c args opened =>
      match recvRequest args with
      | None => (([(c, AckFailed)], []), s)
      | Some name =>
          let '(a, q) := addRecipient (a_q s) (commandKey name) c in
          (([(c, if opened && (if findDef d name then true else false) then AckSent else AckFailed)], a),
           {| a_q := q; a_counter := a_counter s |})
      end
  | AGet c args =>
      match getRequest d args with
      | None => (([(c, AckFailed)], []), s)
      | Some (label, i) =>
          let '(a, q) := addRecipient (a_q s) (paramKey label i) c in
          (([(c, AckSent)], a), {| a_q := q; a_counter := a_counter s |})
      end
  | AAbort c => (([(c, AckAborted)], []), s)
  | ADgram name m buf =>
      let label := msgLabel name (a_counter s) in
      let '(a, q1) := addMessage (a_q s) (commandKey name) (TVs (SS label)) in
      let '(b, q2) := queueParams q1 label 0 (fst (handleUdpMessage m buf)) in
      (([], a ++ b), {| a_q := q2; a_counter := S (a_counter s) |})
  end.
Fixpoint arun (d : defs) (s : ada) (l : list aop) : (list (cmd * ack) * list (ret tval)) * ada :=
  match l with
  | [] => (([], []), s)
  | o :: r => let '(x, s1) := astep d s o in let '(y, s2) := arun d s1 r in ((fst x ++ fst y, snd x ++ snd y), s2)
  end.

(** ** Two threads *)
(** addRecipient runs in the exec's thread, addMessage in the event loop's; only the map is locked (:131-145).
    One queue; a step is one statement of addRecipient, addMessage or updateQueue.  [Bad]: front() or pop() of
    an empty queue. *)
Inductive pc : Type := PPush | PCheck | PDeliver | PPopR | PPopM | PDone.
Record race : Type := mkRace { r_rq : list cmd; r_mq : list tval; r_ret : list (cmd * tval); r_exec : pc; r_udp : pc }.
Inductive tid : Type := Exec | Udp.
Definition upd (t : tid) (p : pc) (s : race) : race :=
  match t with
  | Exec => {| r_rq := r_rq s; r_mq := r_mq s; r_ret := r_ret s; r_exec := p; r_udp := r_udp s |}
  | Udp => {| r_rq := r_rq s; r_mq := r_mq s; r_ret := r_ret s; r_exec := r_exec s; r_udp := p |}
  end.
Inductive rres : Type := Run (s : race) | Bad (s : race).
Definition rstep (c : cmd) (v : tval) (t : tid) (s : race) : rres :=
  match (match t with Exec => r_exec s | Udp => r_udp s end) with
  | PPush => Run (upd t PCheck match t with
                  | Exec => {| r_rq := r_rq s ++ [c]; r_mq := r_mq s; r_ret := r_ret s; r_exec := r_exec s; r_udp := r_udp s |}
                  | Udp => {| r_rq := r_rq s; r_mq := r_mq s ++ [v]; r_ret := r_ret s; r_exec := r_exec s; r_udp := r_udp s |}
                  end)
  | PCheck => Run (upd t (match r_rq s, r_mq s with _ :: _, _ :: _ => PDeliver | _, _ => PDone end) s)
  | PDeliver => match r_rq s, r_mq s with
                | c' :: _, v' :: _ => Run (upd t PPopR {| r_rq := r_rq s; r_mq := r_mq s; r_ret := r_ret s ++ [(c', v')]; r_exec := r_exec s; r_udp := r_udp s |})
                | _, _ => Bad s
                end
  | PPopR => match r_rq s with
             | _ :: r => Run (upd t PPopM {| r_rq := r; r_mq := r_mq s; r_ret := r_ret s; r_exec := r_exec s; r_udp := r_udp s |})
             | [] => Bad s
             end
  | PPopM => match r_mq s with
             | _ :: m => Run (upd t PCheck {| r_rq := r_rq s; r_mq := m; r_ret := r_ret s; r_exec := r_exec s; r_udp := r_udp s |})
             | [] => Bad s
             end
  | PDone => Run s
  end.
Fixpoint rrun (c : cmd) (v : tval) (l : list tid) (s : race) : rres :=
  match l with [] => Run s | t :: r => match rstep c v t s with Run s' => rrun c v r s' | x => x end end.
Definition rinit (r : list cmd) (m : list tval) : race := {| r_rq := r; r_mq := m; r_ret := []; r_exec := PPush; r_udp := PPush |}.
