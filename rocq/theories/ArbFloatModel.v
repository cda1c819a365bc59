(** The resource arbiter with the amounts it really computes with: /repo/src/intfc/ResourceArbiterInterface.cc on doubles.
    Simplifications:
    - amounts are IEEE doubles with rounding to nearest (FloatModel.v);
    - resource names are natural numbers ordered as std::string orders them, std::map is a function, std::set an ordered list
      without duplicates (as in ArbiterModel.v, whose definitions these follow; there the amounts are integers);
    - debug output is left out. *)
From Coq Require Import List ZArith Bool.
From Flocq Require Import Core BinarySingleNaN.
From Verif Require Import FloatModel LitModel.
Import ListNotations.
Local Open Scope nat_scope.

(** ChildResourceNode, :47-95. *)
Record fcreq := { fq_name : nat; fq_w : fl; fq_rel : bool }.
(** ResourceNode, :123-160; children as (weight, name); ResourceHierarchyMap, :165. *)
Record fnode := { fn_max : fl; fn_children : list (fl * nat) }.
Definition fhier := nat -> option fnode.
(** ResourceValue (CommandImpl.hh): one resource request of a command; a command, with its identity. *)
Record fval := { fv_name : nat; fv_prio : Z; fv_upper : fl; fv_release : bool }.
Record fcmd := { fk_id : nat; fk_res : list fval }.

(** determineChildResources, :270-291; [None]: deeper than [fuel]. *)
Fixpoint fflatC (fuel : nat) (h : fhier) (rel : bool) (n : nat) : option (list fcreq) :=
  match fuel with
  | 0 => None
  | S k =>
    match h n with
    | None => Some []
    | Some nd =>
      fold_right (fun c acc =>
        match fflatC k h rel (snd c), acc with
        | Some l, Some a => Some ({| fq_name := snd c; fq_w := fst c; fq_rel := rel |} :: l ++ a)
        | _, _ => None
        end) (Some []) (fn_children nd)
    end
  end.
(** std::set<ChildResourceNode>: find, insert. *)
Fixpoint fsfind (n : nat) (s : list fcreq) : bool :=
  match s with [] => false | y :: r => Nat.eqb (fq_name y) n || fsfind n r end.
Fixpoint fsinsert (x : fcreq) (s : list fcreq) : list fcreq :=
  match s with
  | [] => [x]
  | y :: r => if Nat.ltb (fq_name x) (fq_name y) then x :: s
              else if Nat.eqb (fq_name x) (fq_name y) then s
              else y :: fsinsert x r
  end.
(** determineAllChildResources, :300-331. *)
Definition faddNeeds (reqName : nat) (flat : list fcreq) (s : list fcreq) : list fcreq :=
  fold_left (fun s f =>
    if negb (fsfind (fq_name f) s) then fsinsert f s
    else if Nat.eqb (fq_name f) reqName then fsinsert f s else s) flat s.
Definition fallChild (fuel : nat) (h : fhier) (v : fval) (s : list fcreq) : option (list fcreq) :=
  match fflatC fuel h (fv_release v) (fv_name v) with
  | None => None
  | Some l => Some (faddNeeds (fv_name v) ({| fq_name := fv_name v; fq_w := fv_upper v; fq_rel := fv_release v |} :: l) s)
  end.
Fixpoint fallNeeds (fuel : nat) (h : fhier) (vs : list fval) (s : list fcreq) : option (list fcreq) :=
  match vs with
  | [] => Some s
  | v :: r => match fallChild fuel h v s with None => None | Some s' => fallNeeds fuel h r s' end
  end.
(** CommandPriorityEntry, :170-197; std::stable_sort, :205-208, :373-375. *)
Record fentry := { fp_cmd : nat; fp_prio : Z; fp_needs : list fcreq }.
Fixpoint fpinsert (e : fentry) (l : list fentry) : list fentry :=
  match l with
  | [] => [e]
  | x :: r => if Z.ltb (fp_prio x) (fp_prio e) then x :: fpinsert e r else e :: l
  end.
Fixpoint fpsort (l : list fentry) : list fentry := match l with [] => [] | e :: r => fpinsert e (fpsort r) end.
(** partitionCommands, :343-376. *)
Fixpoint fpartition (fuel : nat) (h : fhier) (cs : list fcmd) : option (list nat * list fentry) :=
  match cs with
  | [] => Some ([], [])
  | c :: r =>
    match fk_res c with
    | [] => match fpartition fuel h r with None => None | Some (a, s) => Some (fk_id c :: a, s) end
    | v :: _ =>
      match fallNeeds fuel h (fk_res c) [] with
      | None => None
      | Some n => match fpartition fuel h r with
                  | None => None
                  | Some (a, s) => Some (a, {| fp_cmd := fk_id c; fp_prio := fv_prio v; fp_needs := n |} :: s)
                  end
      end
    end
  end.

(** ResourceArbiterImpl, :379-392: m_allocated and m_cmdResMap. *)
Record farb := { f_alloc : nat -> option fl; f_held : nat -> option (list fcreq) }.
Definition fnewArb : farb := {| f_alloc := fun _ => None; f_held := fun _ => None |}.
Definition fupd {A} (f : nat -> A) (n : nat) (x : A) : nat -> A := fun m => if Nat.eqb m n then x else f m.
Definition fget (o : option fl) : fl := match o with Some v => v | None => fzero end.
(** maxConsumableResourceValue, :661-666. *)
Definition fmaxOf (h : fhier) (n : nat) : fl := match h n with Some nd => fn_max nd | None => fone end.
(** optimalResourceArbitration, first loop, :572-584. *)
Definition fensure (al : nat -> option fl) (n : nat) : nat -> option fl :=
  match al n with None => fupd al n (Some fzero) | Some _ => al end.
Definition fprepare1 (p : (nat -> option fl) * (nat -> fl * fl)) (q : fcreq) : (nat -> option fl) * (nat -> fl * fl) :=
  (fensure (fst p) (fq_name q), fupd (snd p) (fq_name q) (fget (fst p (fq_name q)), fget (fst p (fq_name q)))).
Definition fprepare (es : list fentry) (al : nat -> option fl) : (nat -> option fl) * (nat -> fl * fl) :=
  fold_left (fun p e => fold_left fprepare1 (fp_needs e) p) es (al, fun _ => (fzero, fzero)).
(** Inner loop, :594-628: [None] if invalid.  The estimates are (renewable, consumable). *)
Fixpoint ftryNeeds (h : fhier) (qs : list fcreq) (est : nat -> fl * fl) : option (nat -> fl * fl) :=
  match qs with
  | [] => Some est
  | q :: r =>
    let (ren, con) := est (fq_name q) in
    let (ren', con') := if flt (fq_w q) fzero then (fadd ren (fq_w q), con) else (ren, fadd con (fq_w q)) in
    let mx := fmaxOf h (fq_name q) in
    if flt ren' fzero || flt mx ren' || flt con' fzero || flt mx con' then None
    else ftryNeeds h r (fupd est (fq_name q) (ren', con'))
  end.
(** :641-646. *)
Definition fcharge (al : nat -> option fl) (q : fcreq) : nat -> option fl :=
  fupd al (fq_name q) (Some (fadd (fget (al (fq_name q))) (fq_w q))).
(** Outer loop, :586-648; accepted and rejected commands in order. *)
Fixpoint fdecide (h : fhier) (es : list fentry) (est : nat -> fl * fl) (s : farb) : list nat * list nat * farb :=
  match es with
  | [] => ([], [], s)
  | e :: r =>
    match ftryNeeds h (fp_needs e) est with
    | None => let '(a, j, s') := fdecide h r est s in (a, fp_cmd e :: j, s')
    | Some est' =>
      let s1 := {| f_alloc := fold_left fcharge (fp_needs e) (f_alloc s);
                   f_held := fupd (f_held s) (fp_cmd e) (Some (fp_needs e)) |} in
      let '(a, j, s') := fdecide h r est' s1 in (fp_cmd e :: a, j, s')
    end
  end.
(** arbitrateCommands, :504-526. *)
Definition farbitrate (fuel : nat) (h : fhier) (cs : list fcmd) (s : farb) : option (list nat * list nat * farb) :=
  match fpartition fuel h cs with
  | None => None
  | Some (a0, es) =>
    let es := fpsort es in
    let (al, est) := fprepare es (f_alloc s) in
    let '(a, j, s') := fdecide h es est {| f_alloc := al; f_held := f_held s |} in
    Some (a0 ++ a, j, s')
  end.
(** releaseResourcesForCommand, :530-558; m_allocated[name] == 0.0. *)
Definition funCharge (al : nat -> option fl) (q : fcreq) : nat -> option fl :=
  if fq_rel q then
    let v := fsub (fget (al (fq_name q))) (fq_w q) in
    fupd al (fq_name q) (if fis0 v then None else Some v)
  else al.
Definition frelease (k : nat) (s : farb) : farb :=
  match f_held s k with
  | None => s
  | Some qs => {| f_alloc := fold_left funCharge qs (f_alloc s); f_held := fupd (f_held s) k None |}
  end.
(** Histories (newest first): batches of commands to arbitrate, commands that end. *)
Inductive fop := FArb (cs : list fcmd) | FRel (k : nat).
Fixpoint farun (fuel : nat) (h : fhier) (l : list fop) : option farb :=
  match l with
  | [] => Some fnewArb
  | FArb cs :: r => match farun fuel h r with
                    | None => None
                    | Some s => match farbitrate fuel h cs s with None => None | Some (_, _, s') => Some s' end
                    end
  | FRel k :: r => match farun fuel h r with None => None | Some s => Some (frelease k s) end
  end.
