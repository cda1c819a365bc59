(** How the UDP event loop is to be used, and what it should do. *)
From Coq Require Import ZArith List Bool Arith.
From Verif Require Import UdpLoopModel.
Import ListNotations.

(** A port is opened only while closed, and closed only while open. *)
Fixpoint wellUsed (opened : list port) (h : list ev) : Prop :=
  match h with
  | [] => True
  | EOpen p _ _ _ :: r => ~ In p opened /\ wellUsed (p :: opened) r
  | EClose p :: r => In p opened /\ wellUsed (remove Nat.eq_dec p opened) r
  | _ :: r => wellUsed opened r
  end.
(** The ports open after a history. *)
Fixpoint openPorts (opened : list port) (h : list ev) : list port :=
  match h with
  | [] => opened
  | EOpen p _ _ _ :: r => openPorts (p :: opened) r
  | EClose p :: r => openPorts (remove Nat.eq_dec p opened) r
  | _ :: r => openPorts opened r
  end.
(** The datagrams that arrive in a socket. *)
Fixpoint arrivals (fd : fdesc) (h : list ev) : list dgram :=
  match h with
  | [] => []
  | EArrive fd' d :: r => if Nat.eq_dec fd fd' then d :: arrivals fd r else arrivals fd r
  | _ :: r => arrivals fd r
  end.
(** The calls of listener functions for a port: function and data. *)
Fixpoint callsFor (p : port) (l : list call) : list (nat * dgram) :=
  match l with
  | [] => []
  | (fn, p', d) :: r => if Nat.eq_dec p p' then (fn, d) :: callsFor p r else callsFor p r
  end.
(** What a listener function [fn] opened with size [max] is to be called with: each datagram that is not empty,
    cut to [max] bytes. *)
Definition calls (fn max : nat) (l : list dgram) : list (nat * dgram) :=
  map (fun d => (fn, firstn max d)) (filter (fun d => match d with [] => false | _ => true end) l).
(** Steps of the event thread only. *)
Definition loopOnly (h : list ev) : Prop := Forall (fun e => e = EPoll \/ e = EHandle) h.
