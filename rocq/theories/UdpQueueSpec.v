(** What the pairing of messages with commands should do. *)
From Coq Require Import ZArith List Bool.
From Verif Require Import ValueModel TypeModel UdpModel UdpQueueModel.
Import ListNotations.

(** ** One queue *)
(** The commands that asked for messages of name [k], and these messages, in order. *)
Fixpoint recipsOf {V} (k : str) (l : list (qop V)) : list cmd :=
  match l with
  | [] => []
  | QRecip k' c :: r => if str_eq_dec k k' then c :: recipsOf k r else recipsOf k r
  | _ :: r => recipsOf k r
  end.
Fixpoint msgsOf {V} (k : str) (l : list (qop V)) : list V :=
  match l with
  | [] => []
  | QMsg k' v :: r => if str_eq_dec k k' then v :: msgsOf k r else msgsOf k r
  | _ :: r => msgsOf k r
  end.
(** What was returned from queue [k]. *)
Fixpoint retsOf {V} (k : str) (l : list (ret V)) : list (cmd * V) :=
  match l with
  | [] => []
  | (k', c, v) :: r => if str_eq_dec k k' then (c, v) :: retsOf k r else retsOf k r
  end.
Definition noDupOp {V} (l : list (qop V)) : Prop := forall b, ~ In (QDup b) l.
(** Without duplicates: a message nobody waits for is kept until a newer one replaces it. *)
Fixpoint newest {V} (k : str) (waiting : list cmd) (pending : option V) (l : list (qop V)) : list (cmd * V) :=
  match l with
  | [] => []
  | QRecip k' c :: r =>
      if str_eq_dec k k' then
        match pending with Some v => (c, v) :: newest k waiting None r | None => newest k (waiting ++ [c]) None r end
      else newest k waiting pending r
  | QMsg k' v :: r =>
      if str_eq_dec k k' then
        match waiting with c :: w => (c, v) :: newest k w None r | [] => newest k [] (Some v) r end
      else newest k waiting pending r
  | QDup _ :: r => newest k waiting pending r
  end.

(** ** The adapter *)
(** The commands waiting for message [name]; those asking for parameter [i] of the message labelled [label]. *)
Fixpoint receivers (name : str) (h : list aop) : list cmd :=
  match h with
  | ARecv c [Some (TVs (SS s))] _ :: r => if str_eq_dec name s then c :: receivers name r else receivers name r
  | _ :: r => receivers name r
  | [] => []
  end.
Fixpoint askers (d : defs) (label : str) (i : nat) (h : list aop) : list cmd :=
  match h with
  | AGet c args :: r =>
      match getRequest d args with
      | Some (s, j) => if str_eq_dec label s then if Nat.eq_dec i j then c :: askers d label i r else askers d label i r else askers d label i r
      | None => askers d label i r
      end
  | _ :: r => askers d label i r
  | [] => []
  end.
(** The datagrams received, in order. *)
Fixpoint datagrams (h : list aop) : list (str * list tval) :=
  match h with
  | ADgram name m buf :: r => (name, fst (handleUdpMessage m buf)) :: datagrams r
  | _ :: r => datagrams r
  | [] => []
  end.
(** The labels of those of message [name]; the first datagram of all has number [n]. *)
Fixpoint labelsFrom (n : nat) (name : str) (l : list (str * list tval)) : list tval :=
  match l with
  | [] => []
  | (s, _) :: r => if str_eq_dec name s then TVs (SS (msgLabel name n)) :: labelsFrom (S n) name r else labelsFrom (S n) name r
  end.
