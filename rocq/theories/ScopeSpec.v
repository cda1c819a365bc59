(** What names mean in a plan, stated on the plan as written. *)
From Coq Require Import Arith List Bool.
From Verif Require Import ScopeModel.
Import ListNotations.

Definition declaredVar (n : lvl) (x : nat) : option vty := mget (l_vars n) x.
Definition declaredParam (n : lvl) (x : nat) : option idecl := find (fun i => i_name i =? x) (l_if n).

(** The meaning of a name in a node.
    - A variable the node declares.
    - Otherwise, a parameter it declares: InOut is the thing of that name in the surrounding scope, or a
      new variable if there is none; In is a read-only view of it, or the default value.
    - Otherwise what the name means in the surrounding scope.
    The surrounding scope of the root of a library is the list of arguments of the call, each evaluated
    in the calling node, and nothing else; of any other node, its parent's scope. *)
Fixpoint denote (ns : list lvl) (x : nat) : option ent :=
  match ns with
  | [] => None
  | n :: up =>
    let outside :=
      match up with
      | [] => None
      | p :: up' =>
        match l_call p with
        | None => denote up x
        | Some c => match mget (c_args c) x with
                    | Some (AVar y) => denote up y
                    | Some (AOther t) => Some (EArg (length up') x t)
                    | None => None
                    end
        end
      end in
    match declaredVar n x, declaredParam n x with
    | Some t, _ => Some (EVar (length up) x (objTy t))
    | None, Some i =>
      match outside, i_out i with
      | Some e, true => Some e
      | Some e, false => if assignable e then Some (EView (length up) x e) else Some e
      | None, true => Some (EVar (length up) x (objTy (i_ty i)))
      | None, false => match i_def i with Some t => Some (EDef (length up) x t) | None => None end
      end
    | None, None => outside
    end
  end.

(** What a name means just outside a node whose ancestors are [up]. *)
Definition surrounding (up : list lvl) (x : nat) : option ent :=
  match up with
  | [] => None
  | p :: up' =>
    match l_call p with
    | None => denote up x
    | Some c => match mget (c_args c) x with
                | Some (AVar y) => denote up y
                | Some (AOther t) => Some (EArg (length up') x t)
                | None => None
                end
    end
  end.

(** Every library root among [ns] that is a plain list declares a variable or a parameter. *)
Fixpoint rootsDeclare (ns : list lvl) : Prop :=
  match ns with
  | [] => True
  | n :: up =>
    (match up with p :: _ => isCall p = true -> isCall n = false -> l_vars n <> [] \/ l_if n <> [] | [] => True end)
    /\ rootsDeclare up
  end.

(** The variable behind a name: an In parameter is a view, of a view, ... of it. *)
Inductive viewOf : ent -> ent -> Prop :=
| vo_here : forall e, viewOf e e
| vo_view : forall d x e v, viewOf e v -> viewOf (EView d x e) v.

(** The mutex a name means: the nearest declaration in the node or its ancestors in the same document,
    otherwise the document's global mutex. *)
Fixpoint mutexMeaning (ns : list lvl) (m : nat) : option ment :=
  match ns with
  | [] => None
  | n :: up =>
    if in_dec Nat.eq_dec m (l_mtx n) then Some (MLocal (length up) m)
    else if docRoot up then (if in_dec Nat.eq_dec m (l_gmtx n) then Some (MGlobal m) else None)
    else mutexMeaning up m
  end.

(** The node a NodeId refers to: the nearest, in the same document. *)
Inductive refersTo : list lvl -> nat -> target -> Prop :=
| rt_self : forall n up, refersTo (n :: up) (l_id n) (NSelf (length up))
| rt_kid : forall n up x k, x <> l_id n -> nth_error (l_kids n) k = Some x ->
    (forall j, j < k -> nth_error (l_kids n) j <> Some x) -> refersTo (n :: up) x (NKid (length up) k)
| rt_up : forall n p up x t, x <> l_id n -> ~ In x (l_kids n) -> l_call p = None ->
    refersTo (p :: up) x t -> refersTo (n :: p :: up) x t.

(** The library call names the called node by its NodeId (not by a file path). *)
Definition callsByName (n : lvl) : Prop := forall c, l_call n = Some c -> l_kids n = [c_ref c].

(** The tree a library-calling plan expands to. *)
Inductive expandsTo (lib : nat -> option tree) : tree -> built -> Prop :=
| ex_leaf : forall id, expandsTo lib (Leaf id) (BLeaf id)
| ex_list : forall id ts bs, Forall2 (expandsTo lib) ts bs -> expandsTo lib (Lst id ts) (BLst id bs)
| ex_call : forall id ref t b, lib ref = Some t -> expandsTo lib t b -> expandsTo lib (Call id ref) (BCall id b).
(** The libraries a tree calls directly. *)
Fixpoint callsIn (t : tree) : list nat :=
  match t with
  | Leaf _ => []
  | Lst _ ts => flat_map callsIn ts
  | Call _ ref => [ref]
  end.
