(** C72: what a scripted environment owes the executive and the author of the script. Histories are newest first. *)
From Coq Require Import ZArith List Bool String.
From Verif Require Import ValueModel OrderProps UdpQueueModel LaunchModel TestModel.
Import ListNotations.
Open Scope Z_scope.

(** Two states (or commands) with the same name and parameters, as the order of states sees it (C20); for the usual states
    this is equality (C72_alike_iff_equal). *)
Definition alike (a b : state) : Prop := state_lt a b = false /\ state_lt b a = false.
(** No NaN among the parameters. *)
Definition okState (s : state) : Prop := Forall ordinary (s_params s).

(** The value the script gave a state last; before that the time is 0 and other states are unknown. *)
Definition told (h : list ev) (s : state) (v : val) : Prop :=
  (exists later earlier s', h = later ++ Tell s' v :: earlier /\ alike s' s /\ forall s2 v2, In (Tell s2 v2) later -> ~ alike s2 s) \/
  ((forall s2 v2, In (Tell s2 v2) h -> ~ alike s2 s) /\ (alike timeState s /\ v = VReal 0 \/ ~ alike timeState s /\ v = unk)).
(** c is the last command s that expects a value, and it got none yet. *)
Definition awaiting (h : list ev) (s : state) (c : nat) : Prop :=
  exists later earlier s', h = later ++ Issue c s' true :: earlier /\ alike s' s /\
    (forall c2 s2, In (Issue c2 s2 true) later -> ~ alike s2 s) /\ (forall c2 s2 v2, In (Return c2 s2 v2) later -> ~ alike s2 s).
(** c is the last command s. *)
Definition lastIssued (h : list ev) (s : state) (c : nat) : Prop :=
  exists later earlier s' r, h = later ++ Issue c s' r :: earlier /\ alike s' s /\ (forall c2 s2 r2, In (Issue c2 s2 r2) later -> ~ alike s2 s).
(** c is the last command s that is to be aborted, and its abort was not answered yet. *)
Definition aborting (h : list ev) (s : state) (c : nat) : Prop :=
  exists later earlier s', h = later ++ AbortReq c s' :: earlier /\ alike s' s /\
    (forall c2 s2, In (AbortReq c2 s2) later -> ~ alike s2 s) /\ (forall c2 s2 b2, In (AbortAck c2 s2 b2) later -> ~ alike s2 s).
(** u is the first update of node n since the last one was acknowledged. *)
Definition updating (h : list ev) (n : str) (u : nat) : Prop :=
  exists later earlier, h = later ++ Update u n :: earlier /\ (forall u2, ~ In (UpdateAck u2 n) later) /\
    (forall l e u2, earlier = l ++ Update u2 n :: e -> exists u3, In (UpdateAck u3 n) l).

(** The commands the environment serves by itself. *)
Definition utilityNames : list str := map chars ["print"; "pprint"; "printToString"; "pprintToString"]%string.

(** What the script says is to happen. *)
Inductive effect : Type :=
| ETell (s : state) (v : val) | EReturn (s : state) (v : val) | EAck (s : state) (h : nat) | EAbort (s : state) (b : bool)
| EUpdate (n : str) | EPlan (p : nat) | EStep.
(** The part of a history that the script is responsible for. *)
Definition scripted (v : ev) : list effect :=
  match v with
  | Tell s v => [ETell s v] | Return _ s v => [EReturn s v] | Ack _ s h => [EAck s h] | AbortAck _ s b => [EAbort s b]
  | UpdateAck _ n => [EUpdate n] | AddPlan p => [EPlan p] | Step => [EStep]
  | _ => []
  end.
(** Oldest first. *)
Definition effects (h : list ev) : list effect := flat_map scripted (rev h).
Definition meansBasic (b : basic) : list effect :=
  match b with
  | BState s v => [ETell s v] | BCommand s v => [EReturn s v] | BAck s v => [EAck s (ackHandle v)]
  | BAbort s (VBool b) => [EAbort s b] | BUpdateAck n => [EUpdate n]
  | _ => []
  end.
Definition means (x : executive) (i : item) : list effect :=
  match i with
  | Basic b => meansBasic b
  | Simultaneous l => flat_map meansBasic l
  | Delay => []
  | SendPlan (Some d) => match child "PlexilPlan" d with Some p => match load x p with Some n => [EPlan n] | None => [] end | None => [] end
  | SendPlan None => []
  end.
Definition meansInit (i : init) : list effect := match i with InState s v => [ETell s v] | _ => [] end.
(** The state assignments of InitialState, then a step; after each element one step. *)
Definition meansInits (l : list init) : list effect := match l with InText :: _ => [EStep] | _ => flat_map meansInit l ++ [EStep] end.
Definition meansScript (x : executive) (l : list item) : list effect := flat_map (fun i => means x i ++ [EStep]) l.

(** Why an element cannot be carried out. *)
Definition impossible (h : list ev) (b : basic) : Prop :=
  match b with
  | BCommand s _ => forall c, ~ awaiting h s c
  | BAck s _ => forall c, ~ lastIssued h s c
  | BAbort s v => (forall b, v <> VBool b) \/ forall c, ~ aborting h s c
  | BUpdateAck n => forall u, ~ updating h n u
  | BBad => True
  | BState _ _ | BText => False
  end.

(** NaN-free scripts and executives. *)
Definition okBasic (b : basic) : Prop := match b with BState s _ | BCommand s _ | BAck s _ | BAbort s _ => okState s | _ => True end.
Definition okItem (i : item) : Prop := match i with Basic b => okBasic b | Simultaneous l => Forall okBasic l | _ => True end.
Definition okInit (i : init) : Prop := match i with InState s _ => okState s | _ => True end.
Definition okCall (a : call) : Prop := match a with CLook s | CExec _ s _ | CAbort _ s => okState s | _ => True end.
Definition okExec (x : executive) : Prop := forall h, Forall okCall (react x h).
