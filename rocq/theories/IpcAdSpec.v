(** What an executive should see of the others through the IPC adapter. *)
From Coq Require Import ZArith List Bool String.
From Verif Require Import ValueModel CacheModel CacheSpec UdpQueueModel UdpQueueSpec IpcModel IpcSpec IpcAdModel.
Import ListNotations.
Open Scope Z_scope.

(** A message as it arrives (C67): the leader and the values it announces. *)
Definition whole (ms : list part) : Prop :=
  match ms with
  | [] => False
  | p :: r => p_count p = Z.of_nat (length r) /\ (forall q, In q r -> isValue q = true /\ p_count q <> 65535)
              /\ match p_what p with KReturn _ _ => length r = 1%nat | KMessage _ | KNotify => r = [] | _ => True end
  end.
Definition messages (h : list xop) : list (list part) := flat_map (fun o => match o with IRecv _ _ ms => [ms] | _ => [] end) h.
Definition commands (h : list xop) : list (cmd * str * list val) := flat_map (fun o => match o with XExec _ c n a => [(c, n, a)] | _ => [] end) h.

(** ** Commands of other executives *)
(** The queue a command waits at, and what a message puts in the queues. *)
Definition asks (n : str) (a : list val) : option str :=
  if streqb n (chars "ReceiveMessage") then match a with [VStr m] => Some m | _ => None end
  else if streqb n (chars "ReceiveCommand") then match a with [VStr m] => Some (commandKey m) | _ => None end
  else if streqb n (chars "GetParameter") then
    match a with
    | [VStr l] => Some (paramKey l 0)
    | [VStr l; VInt i] => if 0 <=? i then Some (paramKey l (Z.to_nat i)) else None
    | _ => None
    end
  else None.
Fixpoint numbered {A} (i : nat) (l : list A) : list (nat * A) := match l with [] => [] | x :: r => (i, x) :: numbered (S i) r end.
Definition offers (ms : list part) : list (str * val) :=
  match ms, readMsg ms with
  | p :: _, (n, RCommand name args) =>
      let label := cmdLabel n (p_uid p) in
      (commandKey name, VStr label) :: map (fun x => (paramKey label (fst x), snd x)) (numbered 0 args)
  | _, (_, RMessage m) => [(m, VStr m)]
  | _, _ => []
  end.
Definition queueOps (h : list xop) : list (qop val) :=
  flat_map (fun o => match o with
    | XExec _ c n a => match asks n a with Some k => [QRecip k c] | None => [] end
    | IRecv _ _ ms => map (fun x => QMsg (fst x) (snd x)) (offers ms)
    | _ => []
    end) h.
(** Commands waiting for [name]; commands asking for parameter [i] under a label. *)
Definition receivers (name : str) (h : list xop) : list cmd :=
  flat_map (fun o => match o with
    | XExec _ c n [VStr m] => if streqb n (chars "ReceiveCommand") && streqb m name then [c] else []
    | _ => []
    end) h.
Definition askers (label : str) (i : nat) (h : list xop) : list cmd :=
  flat_map (fun o => match o with
    | XExec _ c n [VStr m] => if streqb n (chars "GetParameter") && streqb m label && Nat.eqb i 0 then [c] else []
    | XExec _ c n [VStr m; VInt j] => if streqb n (chars "GetParameter") && streqb m label && (j =? Z.of_nat i) then [c] else []
    | _ => []
    end) h.
(** Commands waiting for message [m], and how often it came. *)
Definition listeners (m : str) (h : list xop) : list cmd :=
  flat_map (fun o => match o with
    | XExec _ c n [VStr x] => if streqb n (chars "ReceiveMessage") && streqb x m then [c] else []
    | _ => []
    end) h.
Definition copies (m : str) (h : list xop) : list val :=
  flat_map (fun ms => match readMsg ms with (_, RMessage x) => if streqb x m then [VStr m] else [] | _ => [] end) (messages h).
(** Commands received: serial number, sender, name, arguments. *)
Definition received (h : list xop) : list (Z * str * str * list val) :=
  flat_map (fun ms => match ms, readMsg ms with p :: _, (n, RCommand name args) => [(n, p_uid p, name, args)] | _, _ => [] end) (messages h).
Definition labelsFor (name : str) (h : list xop) : list val :=
  flat_map (fun x => match x with (n, u, m, _) => if streqb m name then [VStr (cmdLabel n u)] else [] end) (received h).
(** No message is named like the adapter's own queues. *)
Definition reserved (m : str) : bool := streqb (firstn 11 m) (chars "__COMMAND__") || streqb (firstn 13 m) (chars "__PARAMETER__").
Definition plainNames (h : list xop) : Prop :=
  (forall n m, In (n, RMessage m) (map readMsg (messages h)) -> reserved m = false)
  /\ (forall c m, In (c, chars "ReceiveMessage", [VStr m]) (commands h) -> reserved m = false).
Definition queueReturns (o : list xout) : list (ret val) := flat_map (fun x => match x with OQueue r => [r] | _ => [] end) o.

(** ** Values returned *)
(** Steps with what they did. *)
Fixpoint xtrace (s : xad) (l : list xop) : option (list (xop * list xout) * xad) :=
  match l with
  | [] => Some ([], s)
  | o :: r => match xstep o s with
              | None => None
              | Some (a, s1) => match xtrace s1 r with None => None | Some (b, s2) => Some ((o, a) :: b, s2) end
              end
  end.
(** Commands published as commands of other executives and acknowledged as sent, with the serial number published. *)
Fixpoint sentCommands (last : option (Z * cmd)) (t : list (xop * list xout)) : list (Z * cmd) :=
  match t with
  | [] => []
  | (XExec _ c _ _, OPub (p :: _) :: _) :: r =>
      sentCommands (match p_what (d_part p) with KCommand _ => Some (p_serial (d_part p), c) | _ => last end) r
  | (XRecord, _) :: r => match last with Some x => [x] | None => [] end ++ sentCommands None r
  | _ :: r => sentCommands last r
  end.

(** ** Lookups *)
(** External lookups: the declared defaults, then the updates, oldest first. *)
Fixpoint defaults (seen : list str) (l : list (str * val)) : list (state * val) :=
  match l with
  | [] => []
  | (n, v) :: r => if declared n seen then defaults seen r else (mkState n [], v) :: defaults (n :: seen) r
  end.
Definition updates (decls : list (str * val)) (h : list xop) : list (state * val) :=
  flat_map (fun x => match x with
    | (_, n, VStr m :: v :: ps) => if streqb n (chars "UpdateLookup") && declared m (map fst decls) then [(mkState m ps, v)] else []
    | _ => []
    end) (commands h).
Definition lastOf (st : state) (l : list (state * val)) : option val :=
  fold_left (fun acc x => if same_key (fst x) st then Some (snd x) else acc) l None.
Definition known (decls : list (str * val)) (h : list xop) (st : state) : option val := lastOf st (defaults [] decls ++ updates decls h).
Definition reply (decls : list (str * val)) (h : list xop) (st : state) : option val :=
  match known decls h st with Some v => Some v | None => known decls h (mkState (s_name st) []) end.
Definition statesOk (decls : list (str * val)) (h : list xop) : Prop := forall x, In x (updates decls h) -> okState (fst x).
(** No lookup is under way, none is half answered. *)
Definition quiet (s : xad) : Prop := x_phase s = Idle /\ x_sem s = 0%nat /\ x_lserial s = 0 /\ x_lstate s = noState.
(** The value a message gives to a lookup of [st] sent under number [n]. *)
Definition answersWith (n : Z) (st : state) (ms : list part) : option val :=
  match readMsg ms with
  | (_, RReturn q [v]) => if q =? n then Some v else None
  | (_, RTelemetry name (v :: ps)) => if streqb name [] then None else if state_eq st (mkState name ps) then Some v else None
  | _ => None
  end.
Definition answersOut (o : list xout) : list val := flat_map (fun x => match x with OAnswer v => [v] | _ => [] end) o.

(** A name "d:n" stands for [n] of the executive [d]; a name without a colon is for everybody. *)
Definition directed (name d n : str) : Prop := (name = d ++ 58 :: n /\ ~ In 58 d) \/ (d = [] /\ n = name /\ ~ In 58 name).
