(** Who must be called: the history of registrations, read as it is meant. *)
From Coq Require Import ZArith List Bool String.
From Verif Require Import ValueModel FloatModel TypeModel UdpQueueModel LitModel DispModel.
Import ListNotations.
Open Scope Z_scope.

(** The handler a registration gives to the command (lookup) named [n], or makes the default. *)
Inductive givesCommand (n : str) : reg -> chandler -> Prop :=
| GC_list h names : In n names -> givesCommand n (RegCmd h names) h
| GC_one h : givesCommand n (RegCmd1 h n) h.
Inductive givesLookup (n : str) : reg -> lhandler -> Prop :=
| GL_list h names : In n names -> givesLookup n (RegLk h names) h
| GL_one h : givesLookup n (RegLk1 h n) h.
(** [x] is what the last registration of this kind in the history gives. *)
Definition last {A} (gives : reg -> A -> Prop) (h : list reg) (x : A) : Prop :=
  exists h1 r h2, h = h1 ++ r :: h2 /\ gives r x /\ forall r' y, In r' h2 -> ~ gives r' y.
Definition never {A} (gives : reg -> A -> Prop) (h : list reg) : Prop := forall r y, In r h -> ~ gives r y.
(** The handler in force: the last for the name; otherwise the last default; otherwise the built-in one. *)
Definition inForce {A} (gives dflt : reg -> A -> Prop) (builtin : A) (h : list reg) (x : A) : Prop :=
  last gives h x \/ never gives h /\ (last dflt h x \/ never dflt h /\ x = builtin).
Definition commandInForce (h : list reg) (n : str) : chandler -> Prop := inForce (givesCommand n) (fun r x => r = DefCmd x) CBase h.
Definition lookupInForce (h : list reg) (n : str) : lhandler -> Prop := inForce (givesLookup n) (fun r x => r = DefLk x) LBase h.
Definition updaterInForce (h : list reg) : option nat -> Prop := inForce (fun r x => r = RegUpd x) (fun _ _ => False) None h.

(** The user code called, in order. *)
Fixpoint calls (l : list eff) : list (nat * call) :=
  match l with [] => [] | Ran n k :: r => (n, k) :: calls r | _ :: r => calls r end.
(** User code that does not call other user code. *)
Definition wellBehaved (ub : userCode) : Prop := forall n k, calls (fst (ub n k)) = [].

(** Text of a comma-separated list: blanks are allowed before each item and at the end. *)
Definition blanks (s : str) : Prop := Forall (fun c => c = 32 \/ c = 9 \/ c = 10) s.
Definition plain (s : str) : Prop := Forall (fun c => c <> 44 /\ c <> 32 /\ c <> 9 /\ c <> 10) s.
Inductive argText : list str -> str -> Prop :=
| AT_none ws : blanks ws -> argText [] ws
| AT_last ws a we : blanks ws -> plain a -> a <> [] -> blanks we -> argText [a] (ws ++ a ++ we)
| AT_more ws a l t : blanks ws -> plain a -> l <> [] -> argText l t -> argText (a :: l) (ws ++ a ++ 44 :: t).

(** Everything announced before the last completed step. *)
Fixpoint upToStep (ks : list hubCall) : list hubCall :=
  match ks with
  | [] => []
  | k :: r => if existsb (fun x => match x with HStepComplete => true | _ => false end) (k :: r) then k :: upToStep r else []
  end.
Definition transOf (ks : list hubCall) : list ntrans := flat_map (fun k => match k with HTransitions ts => ts | _ => [] end) ks.
Definition assignsOf (ks : list hubCall) : list nassign := flat_map (fun k => match k with HAssignment a => [a] | _ => [] end) ks.
(** What listener [n] was told. *)
Definition toldTo (n : nat) (o : list (nat * note)) : list note := map snd (filter (fun x => Nat.eqb (fst x) n) o).
Definition transIn (l : list note) : list ntrans := flat_map (fun x => match x with NTrans t => [t] | _ => [] end) l.
Definition assignsIn (l : list note) : list nassign := flat_map (fun x => match x with NAssign a => [a] | _ => [] end) l.
Definition plansIn (l : list note) : list (bool * nat) := flat_map (fun x => match x with NPlan p => [(true, p)] | NLibrary p => [(false, p)] | _ => [] end) l.
Definition plansOf (ks : list hubCall) : list (bool * nat) := flat_map (fun k => match k with HAddPlan p => [(true, p)] | HAddLibrary p => [(false, p)] | _ => [] end) ks.
Definition listenersOf (ks : list hubCall) : list nat := flat_map (fun k => match k with HAddListener n _ => [n] | _ => [] end) ks.
