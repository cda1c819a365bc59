(** Node timepoints: src/exec/NodeTimepointValue.cc and the "transition time trace" part of
    src/exec/NodeImpl.cc (282-286, 1478-1494, 1497-1548, 1565-1582).
    - Clock readings (double) are an arbitrary type [T]; [t0] is the 0.0 of the constructor,
      [tmin] the constant -DBL_MAX.
    - A publishChange call is recorded as the timepoint's name; it reaches listeners only while
      the timepoint is active (NotifyModel).
    - The node's constructor for module tests, which starts in other states than INACTIVE, is
      not modelled. *)
From Verif Require Export NodeModel.
From Coq Require Import List Bool.
Import ListNotations.

Section Time.
Context {T : Type} (t0 tmin : T).

(** NodeTimepointValue members, NodeTimepointValue.hh. *)
Record tp := mkTp { t_state : nstate; t_end : bool; t_known : bool; t_time : T }.
(** m_state, m_currentStateStartTime and the list m_timepoints of a node. *)
Record tnode := mkN { n_state : nstate; n_cur : T; n_tps : list tp }.

(** Constructor and commonInit, NodeImpl.cc 145-177, 282-286: no timepoint exists yet. *)
Definition newNode (t : T) : tnode := mkN INACTIVE t [].

(** setValue and reset, NodeTimepointValue.cc 124-136. *)
Definition tpSet (t : T) (p : tp) : tp := mkTp (t_state p) (t_end p) true t.
Definition tpReset (p : tp) : tp := mkTp (t_state p) (t_end p) false (t_time p).
(** getValue, isKnown, NodeTimepointValue.cc 88-98: regardless of activation. *)
Definition tpRead (p : tp) : option T := if t_known p then Some (t_time p) else None.
Definition name (p : tp) : nstate * bool := (t_state p, t_end p).

(** The condition in the second loop, NodeImpl.cc 1515-1516. *)
Definition relevant (old new : nstate) (p : tp) : bool :=
  (nstate_eqb (t_state p) old && t_end p) || (nstate_eqb (t_state p) new && negb (t_end p)).
(** logTransition, NodeImpl.cc 1497-1520; also the timepoints which publish a change, in order. *)
Definition logTransition (t : T) (new : nstate) (n : tnode) : tnode * list (nstate * bool) :=
  let ps := n_tps n in
  let r := nstate_eqb new INACTIVE in
  let ps1 := if r then map tpReset ps else ps in
  let ps2 := map (fun p => if relevant (n_state n) new p then tpSet t p else p) ps1 in
  (mkN (n_state n) t ps2, (if r then map name ps else []) ++ map name (filter (relevant (n_state n) new) ps1)).
(** setState, NodeImpl.cc 1478-1494. *)
Definition setState (t : T) (new : nstate) (n : tnode) : tnode * list (nstate * bool) :=
  if nstate_eqb new (n_state n) then (n, [])
  else let (n1, l) := logTransition t new n in (mkN new (n_cur n1) (n_tps n1), l).

(** The search loops of ensureTimepoint and getStateStartTime. *)
Fixpoint findTp (s : nstate) (e : bool) (ps : list tp) : option tp :=
  match ps with
  | [] => None
  | p :: r => if nstate_eqb s (t_state p) && Bool.eqb e (t_end p) then Some p else findTp s e r
  end.
(** ensureTimepoint, NodeImpl.cc 1565-1582. *)
Definition ensureTimepoint (s : nstate) (e : bool) (n : tnode) : tnode :=
  match findTp s e (n_tps n) with
  | Some _ => n
  | None => mkN (n_state n) (n_cur n) (mkTp s e false t0 :: n_tps n)
  end.
(** What an expression holding the result of ensureTimepoint reads. *)
Definition readTimepoint (s : nstate) (e : bool) (n : tnode) : option T :=
  match findTp s e (n_tps n) with Some p => tpRead p | None => None end.
(** getStateStartTime, NodeImpl.cc 1522-1542; getCurrentStateStartTime, 1544-1547. *)
Definition getStateStartTime (s : nstate) (n : tnode) : T :=
  if nstate_eqb s (n_state n) then n_cur n
  else match findTp s false (n_tps n) with
       | Some p => match tpRead p with Some t => t | None => tmin end
       | None => tmin
       end.
Definition getCurrentStateStartTime (n : tnode) : T := n_cur n.

(** Histories, newest first: a timepoint is requested by some expression; setState is called. *)
Inductive top := TEnsure (s : nstate) (e : bool) | TTrans (new : nstate) (t : T).
Definition tstep (o : top) (n : tnode) : tnode :=
  match o with TEnsure s e => ensureTimepoint s e n | TTrans new t => fst (setState t new n) end.
Fixpoint hrun (c : T) (h : list top) : tnode :=
  match h with [] => newNode c | o :: r => tstep o (hrun c r) end.
End Time.
Arguments tp : clear implicits.
Arguments tnode : clear implicits.
Arguments top : clear implicits.
