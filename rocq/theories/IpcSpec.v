(** What sending messages between executives should mean. *)
From Coq Require Import ZArith List Bool Arith.
From Verif Require Import ValueModel UdpQueueModel IpcModel.
Import ListNotations.
Open Scope Z_scope.

(** ** Putting parts together *)
(** A part that carries a value, and no message of its own. *)
Definition isValue (p : part) : bool :=
  match p_what p with
  | KUnknown | KHandle _ | KBool _ | KBools _ | KInt _ | KInts _ | KReal _ | KReals _ | KStr _ | KStrs _
  | KPairB _ _ | KPairI _ _ | KPairR _ _ | KPairS _ _ => true
  | _ => false
  end.
(** The values that follow a leader; the other messages stand alone. *)
Definition needs (p : part) : nat :=
  match p_what p with KCommand _ | KLookup _ | KUpdate _ | KTelemetry _ | KReturn _ _ => Z.to_nat (p_count p) | _ => 0%nat end.
(** Values returned are for one executive only. *)
Definition isFor (u : str) (p : part) : bool := match p_what p with KReturn _ x => if str_eq_dec x u then true else false | _ => true end.
Definition sameMsg (p q : part) : bool := if str_eq_dec (p_uid p) (p_uid q) then p_serial p =? p_serial q else false.
(** The parts of one message as the network may show them: the leader and at most its values, or values whose leader
    went to someone else. *)
Definition orderly (ps : list part) : Prop :=
  match ps with
  | [] => True
  | p :: r => 0 <= p_count p /\ (forall q, In q r -> isValue q = true) /\ (isValue p = false -> (length r <= needs p)%nat)
  end.
Definition complete (u : str) (ps : list part) : bool :=
  match ps with [] => false | p :: r => negb (isValue p) && isFor u p && Nat.eqb (length r) (needs p) end.
(** Subscriptions, oldest first: to everything, or to the messages of one type; the former are served first. *)
Definition audience (subs : list (nat * option Z)) (t : Z) : list nat :=
  map fst (filter (fun x => match snd x with None => true | Some _ => false end) subs)
  ++ map fst (filter (fun x => match snd x with Some t' => t =? t' | None => false end) subs).
(** A message is handed over when its last part comes: all its parts, in order, once to each listener. *)
Fixpoint expected (u : str) (subs : list (nat * option Z)) (seen : list part) (l : list event) : list (nat * list part) :=
  match l with
  | [] => []
  | EPart p :: r =>
      let mine := filter (sameMsg p) (seen ++ [p]) in
      (if complete u mine then map (fun n => (n, mine)) (audience subs (match mine with q :: _ => typeCode (p_what q) | [] => 0 end)) else [])
      ++ expected u subs (seen ++ [p]) r
  | ESubAll n :: r => expected u (subs ++ [(n, None)]) seen r
  | ESub n t :: r => expected u (subs ++ [(n, Some t)]) seen r
  | EUnsubAll :: r => expected u [] seen r
  | EUnsub n :: r => expected u (filter (fun x => negb (Nat.eqb (fst x) n)) subs) seen r
  end.
Fixpoint partsIn (l : list event) : list part := match l with [] => [] | EPart p :: r => p :: partsIn r | _ :: r => partsIn r end.
Definition noUnsub (l : list event) : Prop := forall n, ~ In (EUnsub n) l.
Definition orderlyAll (l : list part) : Prop := forall p, In p l -> orderly (filter (sameMsg p) l).

(** ** From sender to receiver *)
Definition nulFree (s : str) : Prop := ~ In 0 s.
Definition filled {T} (a : arr T) : Prop := a_known a = map (fun _ => true) (a_cont a).
(** Values that can be sent. *)
Definition sendable (v : val) : Prop :=
  match v with
  | VUnk _ | VBool _ | VInt _ | VReal _ => True
  | VStr s => nulFree s
  | VBoolArr a => filled a | VIntArr a => filled a | VRealArr a => filled a
  | VStrArr a => filled a /\ forall s, In s (a_cont a) -> nulFree s
  | _ => False
  end.
Definition sendablePair (x : str * val) : Prop :=
  nulFree (fst x) /\ match snd x with VBool _ | VInt _ | VReal _ => True | VStr s => nulFree s | _ => False end.
(** An unknown value loses its type. *)
Definition asReceived (v : val) : val := match v with VUnk _ => VUnk UNKNOWN_TYPE | _ => v end.
Definition callOk (k : scall) : Prop :=
  match k with
  | SMessage s => nulFree s
  | SCommand n d a | SLookup n d a => nulFree n /\ nulFree d /\ (forall v, In v a -> sendable v) /\ Z.of_nat (length a) < 65536
  | SReturn _ u v => nulFree u /\ sendable v
  | STelemetry n a => nulFree n /\ (forall v, In v a -> sendable v) /\ Z.of_nat (length a) < 65536
  | SUpdate n l => nulFree n /\ (forall x, In x l -> sendablePair x) /\ Z.of_nat (length l) < 65536
  end.
(** What a listener learns from the parts handed over. *)
Inductive rmsg : Type :=
| RMessage (s : str) | RCommand (name : str) (args : list val) | RLookup (name : str) (args : list val)
| RReturn (request : Z) (vals : list val) | RTelemetry (name : str) (vals : list val) | RUpdate (node : str) (pairs : list (str * val)) | ROther.
Definition pairOf (c : content) : str * val :=
  match c with
  | KPairB n b => (n, VBool (negb (b =? 0))) | KPairI n z => (n, VInt z) | KPairR n r => (n, VReal r) | KPairS n s => (n, VStr s)
  | _ => ([], VUnk UNKNOWN_TYPE)
  end.
Definition readMsg (ps : list part) : Z * rmsg :=
  match ps with
  | [] => (0, ROther)
  | p :: r =>
      let vals := map (fun q => getPlexilMsgValue (p_what q)) r in
      (p_serial p,
       match p_what p with
       | KMessage s => RMessage s | KCommand n => RCommand n vals | KLookup n => RLookup n vals
       | KReturn q _ => RReturn q vals | KTelemetry n => RTelemetry n vals | KUpdate n => RUpdate n (map (fun q => pairOf (p_what q)) r)
       | _ => ROther
       end)
  end.
Definition meaning (k : scall) : rmsg :=
  match k with
  | SMessage s => RMessage s | SCommand n _ a => RCommand n (map asReceived a) | SLookup n _ a => RLookup n (map asReceived a)
  | SReturn q _ v => RReturn q [asReceived v] | STelemetry n a => RTelemetry n (map asReceived a) | SUpdate n l => RUpdate n l
  end.
Definition addressed (u : str) (k : scall) : bool :=
  match k with
  | SCommand _ d _ | SLookup _ d _ => if str_eq_dec d [] then true else if str_eq_dec d u then true else false
  | SReturn _ d _ => if str_eq_dec d u then true else false
  | _ => true
  end.
(** The calls of one facade are numbered from 1. *)
Fixpoint inbox (u : str) (i : Z) (l : list scall) : list (Z * rmsg) :=
  match l with [] => [] | k :: r => (if addressed u k then [(i, meaning k)] else []) ++ inbox u (i + 1) r end.
Definition fromSender (s : str) (p : part) : bool := if str_eq_dec (p_uid p) s then true else false.
Definition sentBy (s : str) (d : nat * list part) : bool := match snd d with p :: _ => fromSender s p | [] => false end.
(** Every publication accepted. *)
Definition working : nat -> bool := fun _ => true.
Definition published (s : str) (calls : list scall) : list pub := fst (fst (sendAll (facade0 s) (map (pair working) calls))).
Definition prefix {A} (a b : list A) : Prop := exists c, b = a ++ c.
