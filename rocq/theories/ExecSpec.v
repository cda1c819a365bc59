(** Vocabulary for the properties of the executive (used by ExecProps.v). *)
From Verif Require Export ExecModel.

(** The part of the trace (newest first) that concerns the state of node [n],
    oldest first. *)
Fixpoint moves (n : nat) (tr : list event) : list (nstate * nstate) :=
  match tr with
  | [] => []
  | EvTrans m a b :: tr' => moves n tr' ++ (if Nat.eqb m n then [(a, b)] else [])
  | _ :: tr' => moves n tr'
  end.

(** A list of moves leads from [s] to [s'], each starting where the previous
    one ended. *)
Fixpoint leads (s : nstate) (l : list (nstate * nstate)) (s' : nstate) : Prop :=
  match l with
  | [] => s = s'
  | (a, b) :: l' => a = s /\ leads b l' s'
  end.

(** How often node [n] has entered state [s]. *)
Definition entries (n : nat) (s : nstate) (tr : list event) : nat :=
  length (filter (fun ab => nstate_eqb (snd ab) s) (moves n tr)).

Definition is_command n (e : event) : bool := match e with EvCommand m => Nat.eqb m n | _ => false end.
Definition is_abort n (e : event) : bool := match e with EvAbort m => Nat.eqb m n | _ => false end.
Definition is_update n (e : event) : bool := match e with EvUpdate m => Nat.eqb m n | _ => false end.
Definition is_assign n (e : event) : bool := match e with EvAssign m => Nat.eqb m n | _ => false end.
Definition is_retract n (e : event) : bool := match e with EvRetract m => Nat.eqb m n | _ => false end.
Definition is_delete n (e : event) : bool := match e with EvDelete m => Nat.eqb m n | _ => false end.
Definition times (f : event -> bool) (tr : list event) : nat := length (filter f tr).

(** Number of occurrences of a node in an outbound queue. *)
Definition occ (n : nat) (l : list nat) : nat := length (filter (Nat.eqb n) l).

(** The node has gone to FINISHED directly from EXECUTING or FAILING. *)
Definition cut_short (tr : list event) (n : nat) : Prop :=
  In (EvTrans n EXECUTING FINISHED) tr \/ In (EvTrans n FAILING FINISHED) tr.

(** The tree structure of a plan set is consistent; conditions are functions of
    what they read. *)
Record wf_plan {W} (P : plan W) : Prop := {
  wf_kids : forall p c, In c (p_kids P p) <-> parent P c = Some p;
  wf_lists : forall p c, In c (p_kids P p) -> p_type P p = NList;
  wf_cond : forall w v v' n u, (forall m, v m = v' m) -> p_cond P w v n u = p_cond P w v' n u }.
