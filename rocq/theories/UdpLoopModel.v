(** The UDP event loop: /repo/src/interfaces/UdpAdapter/UdpEventLoop.cc.
    Simplifications:
    - openListener and closeListener write to the control pipe and wait on m_sem until the event thread has handled the request,
      so each is one step, possible only when the event thread is about to poll;
    - the event thread polls, then handles the ready descriptors one by one; control messages are handled in an
      iteration of their own;
    - socket, bind and pipe succeed; the kernel chooses file descriptors (any not open) and, among sockets bound
      to one port (SO_REUSEADDR, :114), the one a datagram goes to;
    - a Listener is a value: no listener is deleted while m_descriptors refers to it (removeListener precedes it). *)
From Coq Require Import ZArith List Bool Arith.
Import ListNotations.

Definition port : Type := nat.
Definition fdesc : Type := nat.
Definition dgram : Type := list Z.
(** Listener, :58-82: maxSize, func (a number), socketFD, port. *)
Record listener : Type := mkListener { l_fd : fdesc; l_port : port; l_max : nat; l_fn : nat }.
(** A socket: its port and the datagrams waiting in it. *)
Record sock : Type := mkSock { s_port : port; s_queue : list dgram }.

Section Assoc.
Context {A : Type}.
Fixpoint aget (m : list (nat * A)) (k : nat) : option A :=
  match m with [] => None | (k', a) :: r => if Nat.eq_dec k k' then Some a else aget r k end.
Fixpoint aset (m : list (nat * A)) (k : nat) (a : A) : list (nat * A) :=
  match m with [] => [(k, a)] | (k', a') :: r => if Nat.eq_dec k k' then (k', a) :: r else (k', a') :: aset r k a end.
Fixpoint adel (m : list (nat * A)) (k : nat) : list (nat * A) :=
  match m with [] => [] | (k', a') :: r => if Nat.eq_dec k k' then r else (k', a') :: adel r k end.
End Assoc.

(** m_listeners, m_descriptors, pollfds without the pipe; the ready descriptors still to be handled; whether
    the event thread runs; the process's sockets. *)
Record loop : Type := mkLoop {
  lm : list (port * listener); desc : list (fdesc * listener); polls : list fdesc; todo : list fdesc;
  alive : bool; socks : list (fdesc * sock) }.
Definition loopInit : loop := {| lm := []; desc := []; polls := []; todo := []; alive := true; socks := [] |}.
(** A call of a listener function: function, port, data. *)
Definition call : Type := nat * port * dgram.
(** Outcome of a step: done; the thread waits; null pointer; SIGPIPE (the pipe's reader is gone). *)
Inductive lres : Type := Next (s : loop) (o : list call) | Stuck | Crash | Killed.
Inductive ev : Type :=
| EOpen (p : port) (max fn : nat) (fd : fdesc)   (* openListener; fd as socket() returned it *)
| EClose (p : port)                              (* closeListener *)
| EArrive (fd : fdesc) (d : dgram)               (* the kernel queues a datagram in a socket *)
| EPoll                                          (* poll() returns *)
| EHandle.                                       (* the next ready descriptor *)

(** openListener :187-233 with addListener :471-498.  emplace does nothing if the port has an entry. *)
Definition openListener (s : loop) (p : port) (max fn : nat) (fd : fdesc) : lres :=
  if alive s then
    match todo s, aget (socks s) fd with
    | [], None =>
        let l := {| l_fd := fd; l_port := p; l_max := max; l_fn := fn |} in
        let lm' := match aget (lm s) p with Some _ => lm s | None => aset (lm s) p l end in
        let l' := match aget lm' p with Some x => x | None => l end in
        Next {| lm := lm'; desc := aset (desc s) (l_fd l') l'; polls := polls s ++ [l_fd l']; todo := []; alive := true;
                socks := aset (socks s) fd {| s_port := p; s_queue := [] |} |} []
    | _, _ => Stuck
    end
  else Killed.
(** pollfds.erase of the first entry for the descriptor, :518-530. *)
Fixpoint remove1 (fd : fdesc) (l : list fdesc) : list fdesc :=
  match l with [] => [] | x :: r => if Nat.eq_dec fd x then r else x :: remove1 fd r end.
(** closeListener :236-281 with removeListener :504-540. *)
Definition closeListener (s : loop) (p : port) : lres :=
  if alive s then
    match todo s with
    | [] =>
        match aget (lm s) p with
        | None => Crash
        | Some l => Next {| lm := adel (lm s) p; desc := adel (desc s) (l_fd l); polls := remove1 (l_fd l) (polls s);
                            todo := []; alive := true; socks := adel (socks s) (l_fd l) |} []
        end
    | _ => Stuck
    end
  else Killed.
(** poll() :363: a descriptor is ready if data wait, or if it is closed (POLLNVAL). *)
Definition ready (s : loop) (fd : fdesc) : bool :=
  match aget (socks s) fd with Some k => match s_queue k with [] => false | _ => true end | None => true end.
Definition pollStep (s : loop) : lres :=
  if alive s then
    match todo s with
    | [] => Next {| lm := lm s; desc := desc s; polls := polls s; todo := filter (ready s) (polls s); alive := true; socks := socks s |} []
    | _ => Stuck
    end
  else Stuck.
(** The end of the loop after an error, :453-465. *)
Definition die (s : loop) : loop :=
  {| lm := lm s; desc := []; polls := polls s; todo := []; alive := false; socks := socks s |}.
(** One ready descriptor, :425-444, and handleFDReady :546-570. *)
Definition handleStep (s : loop) : lres :=
  if alive s then
    match todo s with
    | [] => Stuck
    | fd :: rest =>
        match aget (desc s) fd with
        | None => Next (die s) []
        | Some l =>
            match aget (socks s) fd with
            | None => Next (die s) []
            | Some k =>
                match s_queue k with
                | [] => Stuck                    (* recvfrom blocks *)
                | d :: q =>
                    Next {| lm := lm s; desc := desc s; polls := polls s; todo := rest; alive := true;
                            socks := aset (socks s) fd {| s_port := s_port k; s_queue := q |} |}
                         (match d with [] => [] | _ => [(l_fn l, l_port l, firstn (l_max l) d)] end)
                end
            end
        end
    end
  else Stuck.
Definition arrive (s : loop) (fd : fdesc) (d : dgram) : lres :=
  match aget (socks s) fd with
  | Some k => Next {| lm := lm s; desc := desc s; polls := polls s; todo := todo s; alive := alive s;
                      socks := aset (socks s) fd {| s_port := s_port k; s_queue := s_queue k ++ [d] |} |} []
  | None => Stuck
  end.
Definition lstep (s : loop) (e : ev) : lres :=
  match e with
  | EOpen p max fn fd => openListener s p max fn fd
  | EClose p => closeListener s p
  | EArrive fd d => arrive s fd d
  | EPoll => pollStep s
  | EHandle => handleStep s
  end.
Fixpoint lrun (s : loop) (h : list ev) : lres :=
  match h with
  | [] => Next s []
  | e :: r => match lstep s e with
              | Next s1 o => match lrun s1 r with Next s2 o2 => Next s2 (o ++ o2) | x => x end
              | x => x
              end
  end.
