(** Specification for C26 and C27, in terms of the operations performed on lookups and the
    updates the interface delivered. *)
From Verif Require Import ValueModel RealModel CacheModel OrderProps.
Open Scope Z_scope.

(** Updates delivered for state s so far, oldest first, since its cache entry was last deleted.
    Two states are the same when neither is less than the other. *)
Definition delivered (s : state) (tr : list ev) : list upd :=
  fold_left (fun acc v =>
    match v with
    | Got k u => if same_key k s then acc ++ [u] else acc
    | Del k => if same_key k s then [] else acc
    | _ => acc
    end) tr [].

(** The value of a state after an update: the type is fixed by the first typed update; unknown
    keeps the type; an Integer given to a Real state is converted; a value of another type is
    ignored. *)
Definition canonType (t : Z) : Z := if (t =? DATE_TYPE) || (t =? DURATION_TYPE) then REAL_TYPE else t.
Definition valueAfter (cur : val) (u : upd) : val :=
  match u with
  | UUnk => VUnk (vtype cur)
  | UVal v =>
      if vtype cur =? UNKNOWN_TYPE then
        match v with VUnk t => VUnk (canonType t) | _ => v end
      else match v with
           | VUnk t => if (t =? vtype cur) || (t =? UNKNOWN_TYPE) || ((t =? INTEGER_TYPE) && (vtype cur =? REAL_TYPE))
                       then VUnk (vtype cur) else cur
           | VInt n => if vtype cur =? INTEGER_TYPE then v
                       else if vtype cur =? REAL_TYPE then VReal (intBits n) else cur
           | _ => if vtype v =? vtype cur then v else cur
           end
  end.
Definition current (s : state) (tr : list ev) : val :=
  fold_left valueAfter (delivered s tr) (VUnk UNKNOWN_TYPE).

(** Two values of one type a reader cannot tell apart (0.0 and -0.0; equal arrays). *)
Definition vsim (a b : val) : Prop := a = b \/ (vtype a = vtype b /\ veq a b = true).
(** The value changed: known-ness changed, or two known values differ. *)
Definition changed (old new : val) : bool :=
  if vknown old && vknown new then negb (veq old new) else negb (Bool.eqb (vknown old) (vknown new)).

(** What the operations performed say about lookup l: how often it is active, and which state
    it denotes. *)
Fixpoint activeOf (os : list op) (l : nat) : Z :=
  match os with
  | [] => 0
  | OAct m _ :: r => (if Nat.eqb m l then 1 else 0) + activeOf r l
  | ODeact m :: r => (if Nat.eqb m l then -1 else 0) + activeOf r l
  | _ :: r => activeOf r l
  end.
Definition stateOf (ps : nat -> lkspec) (os : list op) (l : nat) : option state :=
  fold_left (fun acc o => match o with OEnv m s _ => if Nat.eqb m l then s else acc | _ => acc end) os (ls_env (ps l)).
Definition tolOf (ps : nat -> lkspec) (os : list op) (l : nat) : val :=
  fold_left (fun acc o => match o with OTol m v => if Nat.eqb m l then v else acc | _ => acc end) os (ls_tol (ps l)).

(** Legal states: ordinary parameter values (no NaN); a lookup's parameters are known
    (Lookup.cc 430-433). *)
Definition okState (s : state) : Prop := Forall ordinary (s_params s).
Definition okLkState (s : state) : Prop := okState s /\ Forall (fun v => vknown v = true) (s_params s).
Definition okOpt (o : option state) : Prop := match o with Some s => okLkState s | None => True end.
Definition okOp (o : op) : Prop :=
  match o with OEnv _ s _ => okOpt s | OUpd s _ => okState s | ODel s => okState s | _ => True end.
Definition okSpec (p : lkspec) : Prop := okOpt (ls_env p) /\ (ls_const p = true -> ls_env p <> None).

Definition pubs (l : nat) (tr : list ev) : nat := count_occ Nat.eq_dec (flat_map (fun v => match v with Pub m => [m] | _ => [] end) tr) l.

(** A value for s was delivered since the current macro step began. *)
Definition gotSince (s : state) (tr : list ev) : bool :=
  fold_left (fun acc v => match v with Cyc => false | Got k _ => acc || same_key k s | _ => acc end) tr false.
