(** What the arbiter is expected to do, in terms of commands, their requests and the hierarchy. *)
From Coq Require Import List ZArith Bool.
From Verif Require Import ArbiterModel.
Import ListNotations.

(** All descendants of a resource, depth first, each with its own weight. *)
Inductive Desc (h : hier) (rel : bool) : nat -> list creq -> Prop :=
| D_leaf n : h n = None -> Desc h rel n []
| D_node n nd l : h n = Some nd -> Descs h rel (rn_children nd) l -> Desc h rel n l
with Descs (h : hier) (rel : bool) : list (Z * nat) -> list creq -> Prop :=
| Ds_nil : Descs h rel [] []
| Ds_cons w n cs l1 l2 : Desc h rel n l1 -> Descs h rel cs l2 ->
    Descs h rel ((w, n) :: cs) ({| q_name := n; q_w := w; q_rel := rel |} :: l1 ++ l2).

(** Everything the requests of a command mention: each request, then its descendants. *)
Inductive Mentions (h : hier) : list rval -> list creq -> Prop :=
| M_nil : Mentions h [] []
| M_cons v vs l1 l2 : Desc h (v_release v) (v_name v) l1 -> Mentions h vs l2 ->
    Mentions h (v :: vs) ({| q_name := v_name v; q_w := v_upper v; q_rel := v_release v |} :: l1 ++ l2).

Fixpoint firstQ (r : nat) (l : list creq) : option creq :=
  match l with [] => None | q :: t => if Nat.eqb (q_name q) r then Some q else firstQ r t end.

(** What a command needs of each resource: the first mention counts. *)
Definition NeedOf (h : hier) (c : acmd) (need : nat -> option creq) : Prop :=
  exists L, Mentions h (k_res c) L /\ forall r, need r = firstQ r L.

Definition amount (o : option creq) : Z := match o with Some q => q_w q | None => 0%Z end.
(** The part that is not given back when the command ends. *)
Definition keptAmount (o : option creq) : Z := match o with Some q => if q_rel q then 0%Z else q_w q | None => 0%Z end.

(** Priority of a command: that of its first request; smaller numbers go first. *)
Definition prioOf (c : acmd) : Z := match k_res c with v :: _ => v_prio v | [] => 0%Z end.
Definition contested (c : acmd) : bool := match k_res c with [] => false | _ => true end.

Definition mem (k : nat) (l : list nat) : bool := existsb (Nat.eqb k) l.
Fixpoint sumZ {A} (f : A -> Z) (l : list A) : Z := match l with [] => 0%Z | x :: r => (f x + sumZ f r)%Z end.

(** Decisions, newest first: a command with requests was accepted, a command ended. *)
Inductive dec := DAcc (c : acmd) | DRel (k : nat).
Fixpoint trace (fuel : nat) (h : hier) (l : list aop) : list dec :=
  match l with
  | [] => []
  | ARel k :: r => DRel k :: trace fuel h r
  | AArb cs :: r =>
    match arun fuel h r with
    | None => []
    | Some s => match arbitrate fuel h cs s with
                | None => []
                | Some (acc, _, _) =>
                  rev (map DAcc (filter (fun c => contested c && mem (k_id c) acc) cs)) ++ trace fuel h r
                end
    end
  end.

(** Amount of [r] in use after a list of decisions: an accepted command counts in full until it
    ends, then only with what it does not give back.  [ended]: commands that ended later on and
    were not accepted again in between. *)
Fixpoint inUse (need : acmd -> nat -> option creq) (ended : list nat) (tr : list dec) (r : nat) : Z :=
  match tr with
  | [] => 0%Z
  | DRel k :: t => inUse need (k :: ended) t r
  | DAcc c :: t =>
    ((if mem (k_id c) ended then keptAmount (need c r) else amount (need c r))
     + inUse need (filter (fun k => negb (Nat.eqb k (k_id c))) ended) t r)%Z
  end.

(** Batches contain no command twice (a command is linked into at most one queue, once). *)
Definition properOp (o : aop) : Prop := match o with AArb cs => NoDup (map k_id cs) | ARel _ => True end.
(** [need] describes the needs of every command in the history. *)
Definition describes (h : hier) (need : acmd -> nat -> option creq) (l : list aop) : Prop :=
  forall cs c, In (AArb cs) l -> In c cs -> NeedOf h c (need c).
Definition nonneg (need : acmd -> nat -> option creq) (l : list aop) : Prop :=
  forall cs c r, In (AArb cs) l -> In c cs -> (0 <= amount (need c r))%Z.
