(** Model of the resource arbiter: src/intfc/ResourceArbiterInterface.cc.
    Simplifications:
    - resource amounts are integers (multiples of some common unit): exact arithmetic instead of
      double rounding, no NaN or infinity;
    - resource names are natural numbers ordered as std::string orders them;
    - std::map is a function, std::set an ordered list without duplicates;
    - the text parser of hierarchy files (readResourceHierarchy) is not modelled: a hierarchy is
      any map from names to nodes. *)
From Coq Require Import List ZArith Bool Lia.
Import ListNotations.

(** ChildResourceNode, 47-95, and a resource needed by a command. *)
Record creq := { q_name : nat; q_w : Z; q_rel : bool }.
(** ResourceNode, 123-160; children as (weight, name). *)
Record rnode := { rn_max : Z; rn_children : list (Z * nat) }.
(** ResourceHierarchyMap, 165. *)
Definition hier := nat -> option rnode.
(** ResourceValue (CommandImpl.hh): one resource request of a command. *)
Record rval := { v_name : nat; v_prio : Z; v_upper : Z; v_release : bool }.
(** CommandImpl as the arbiter sees it: identity (pointer) and resource values. *)
Record acmd := { k_id : nat; k_res : list rval }.

(** determineChildResources, 270-291: pre-order list of all descendants.  [None]: the recursion
    is deeper than [fuel]; the C++ has no bound, see C16_cycle_refuted and C16_terminates. *)
Fixpoint flatC (fuel : nat) (h : hier) (rel : bool) (n : nat) : option (list creq) :=
  match fuel with
  | 0 => None
  | S k =>
    match h n with
    | None => Some []
    | Some nd =>
      fold_right (fun c acc =>
        match flatC k h rel (snd c), acc with
        | Some l, Some a => Some ({| q_name := snd c; q_w := fst c; q_rel := rel |} :: l ++ a)
        | _, _ => None
        end) (Some []) (rn_children nd)
    end
  end.

(** std::set<ChildResourceNode>, ordered by name (97-104): find and insert (which leaves an equal
    element in place). *)
Fixpoint sfind (n : nat) (s : list creq) : bool :=
  match s with [] => false | y :: r => Nat.eqb (q_name y) n || sfind n r end.
Fixpoint sinsert (x : creq) (s : list creq) : list creq :=
  match s with
  | [] => [x]
  | y :: r => if Nat.ltb (q_name x) (q_name y) then x :: s
              else if Nat.eqb (q_name x) (q_name y) then s
              else y :: sinsert x r
  end.

(** determineAllChildResources, 300-331. *)
Definition addNeeds (reqName : nat) (flat : list creq) (s : list creq) : list creq :=
  fold_left (fun s f =>
    if negb (sfind (q_name f) s) then sinsert f s
    else if Nat.eqb (q_name f) reqName then sinsert f s else s) flat s.
Definition allChild (fuel : nat) (h : hier) (v : rval) (s : list creq) : option (list creq) :=
  match flatC fuel h (v_release v) (v_name v) with
  | None => None
  | Some l => Some (addNeeds (v_name v) ({| q_name := v_name v; q_w := v_upper v; q_rel := v_release v |} :: l) s)
  end.
Fixpoint allNeeds (fuel : nat) (h : hier) (vs : list rval) (s : list creq) : option (list creq) :=
  match vs with
  | [] => Some s
  | v :: r => match allChild fuel h v s with None => None | Some s' => allNeeds fuel h r s' end
  end.

(** CommandPriorityEntry, 170-197. *)
Record pentry := { p_cmd : nat; p_prio : Z; p_needs : list creq }.

(** std::stable_sort by priority (205-208, 373-375). *)
Fixpoint pinsert (e : pentry) (l : list pentry) : list pentry :=
  match l with
  | [] => [e]
  | x :: r => if Z.ltb (p_prio x) (p_prio e) then x :: pinsert e r else e :: l
  end.
Fixpoint psort (l : list pentry) : list pentry :=
  match l with [] => [] | e :: r => pinsert e (psort r) end.

(** partitionCommands, 343-376: commands without requests, and the rest, in order of arrival. *)
Fixpoint partition (fuel : nat) (h : hier) (cs : list acmd) : option (list nat * list pentry) :=
  match cs with
  | [] => Some ([], [])
  | c :: r =>
    match k_res c with
    | [] => match partition fuel h r with None => None | Some (a, s) => Some (k_id c :: a, s) end
    | v :: _ =>
      match allNeeds fuel h (k_res c) [] with
      | None => None
      | Some n => match partition fuel h r with
                  | None => None
                  | Some (a, s) => Some (a, {| p_cmd := k_id c; p_prio := v_prio v; p_needs := n |} :: s)
                  end
      end
    end
  end.

(** ResourceArbiterImpl, 379-392: m_allocated and m_cmdResMap. *)
Record arb := { a_alloc : nat -> option Z; a_held : nat -> option (list creq) }.
Definition newArb : arb := {| a_alloc := fun _ => None; a_held := fun _ => None |}.
Definition upd {A} (f : nat -> A) (n : nat) (x : A) : nat -> A := fun m => if Nat.eqb m n then x else f m.
Definition val (o : option Z) : Z := match o with Some v => v | None => 0%Z end.

(** maxConsumableResourceValue, 661-666. *)
Definition maxOf (h : hier) (n : nat) : Z := match h n with Some nd => rn_max nd | None => 1%Z end.

(** optimalResourceArbitration, first loop, 572-584. *)
Definition ensure (al : nat -> option Z) (n : nat) : nat -> option Z :=
  match al n with None => upd al n (Some 0%Z) | Some _ => al end.
Definition prepare1 (p : (nat -> option Z) * (nat -> Z * Z)) (q : creq) : (nat -> option Z) * (nat -> Z * Z) :=
  (ensure (fst p) (q_name q), upd (snd p) (q_name q) (val (fst p (q_name q)), val (fst p (q_name q)))).
Definition prepare (es : list pentry) (al : nat -> option Z) : (nat -> option Z) * (nat -> Z * Z) :=
  fold_left (fun p e => fold_left prepare1 (p_needs e) p) es (al, fun _ => (0%Z, 0%Z)).

(** Inner loop, 594-628: [None] if invalid.  The estimates are (renewable, consumable). *)
Fixpoint tryNeeds (h : hier) (qs : list creq) (est : nat -> Z * Z) : option (nat -> Z * Z) :=
  match qs with
  | [] => Some est
  | q :: r =>
    let (ren, con) := est (q_name q) in
    let (ren', con') := if Z.ltb (q_w q) 0 then (ren + q_w q, con)%Z else (ren, con + q_w q)%Z in
    let mx := maxOf h (q_name q) in
    if (Z.ltb ren' 0 || Z.ltb mx ren' || Z.ltb con' 0 || Z.ltb mx con')%bool then None
    else tryNeeds h r (upd est (q_name q) (ren', con'))
  end.

(** 641-646. *)
Definition charge (al : nat -> option Z) (q : creq) : nat -> option Z :=
  upd al (q_name q) (Some (val (al (q_name q)) + q_w q)%Z).

(** Outer loop, 586-648; accepted and rejected commands in order. *)
Fixpoint decide (h : hier) (es : list pentry) (est : nat -> Z * Z) (s : arb) : list nat * list nat * arb :=
  match es with
  | [] => ([], [], s)
  | e :: r =>
    match tryNeeds h (p_needs e) est with
    | None => let '(a, j, s') := decide h r est s in (a, p_cmd e :: j, s')
    | Some est' =>
      let s1 := {| a_alloc := fold_left charge (p_needs e) (a_alloc s);
                   a_held := upd (a_held s) (p_cmd e) (Some (p_needs e)) |} in
      let '(a, j, s') := decide h r est' s1 in (p_cmd e :: a, j, s')
    end
  end.

(** arbitrateCommands, 504-526. *)
Definition arbitrate (fuel : nat) (h : hier) (cs : list acmd) (s : arb) : option (list nat * list nat * arb) :=
  match partition fuel h cs with
  | None => None
  | Some (a0, es) =>
    let es := psort es in
    let (al, est) := prepare es (a_alloc s) in
    let '(a, j, s') := decide h es est {| a_alloc := al; a_held := a_held s |} in
    Some (a0 ++ a, j, s')
  end.

(** releaseResourcesForCommand, 530-558. *)
Definition unCharge (al : nat -> option Z) (q : creq) : nat -> option Z :=
  if q_rel q then
    let v := (val (al (q_name q)) - q_w q)%Z in
    upd al (q_name q) (if Z.eqb v 0 then None else Some v)
  else al.
Definition release (k : nat) (s : arb) : arb :=
  match a_held s k with
  | None => s
  | Some qs => {| a_alloc := fold_left unCharge qs (a_alloc s); a_held := upd (a_held s) k None |}
  end.

(** Histories (newest first): batches of commands to arbitrate, commands that end. *)
Inductive aop := AArb (cs : list acmd) | ARel (k : nat).
Fixpoint arun (fuel : nat) (h : hier) (l : list aop) : option arb :=
  match l with
  | [] => Some newArb
  | AArb cs :: r => match arun fuel h r with
                    | None => None
                    | Some s => match arbitrate fuel h cs s with None => None | Some (_, _, s') => Some s' end
                    end
  | ARel k :: r => match arun fuel h r with None => None | Some s => Some (release k s) end
  end.
