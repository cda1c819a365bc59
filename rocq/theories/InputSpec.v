(** Specification for C28: an ideal queue replaying what the callers saw. *)
From Verif Require Import InputModel.

(** [i_q]: waiting entries with their contents, oldest first; [i_own]: entries in somebody's hands. *)
Record ideal := mkI { i_q : list (nat * content); i_own : list nat }.
Definition owns (i : ideal) (p : nat) : bool := existsb (Nat.eqb p) (i_own i).
Definition waiting (i : ideal) (p : nat) : bool := existsb (fun x => Nat.eqb p (fst x)) (i_q i).
(** What each observation must look like. *)
Inductive ideal_step : ideal -> obs -> ideal -> Prop :=
| I_alloc i p : owns i p = false -> waiting i p = false -> ideal_step i (BAlloc p blank) (mkI (i_q i) (p :: i_own i))
| I_put i p c : owns i p = true -> ideal_step i (BPut p c) (mkI (i_q i ++ [(p, c)]) (del p (i_own i)))
| I_get_empty i : i_q i = [] -> ideal_step i (BGet None) i
| I_get i p c r : i_q i = (p, c) :: r -> owns i p = false -> ideal_step i (BGet (Some (p, c))) (mkI r (p :: i_own i))
| I_rel i p : owns i p = true -> ideal_step i (BRel p) (mkI (i_q i) (del p (i_own i)))
| I_flush i : ideal_step i BFlush (mkI [] (i_own i))
| I_empty i : ideal_step i (BEmpty (match i_q i with [] => true | _ => false end)) i.
Inductive ideal_run : ideal -> list obs -> ideal -> Prop :=
| IR_nil i : ideal_run i [] i
| IR_cons i b j l k : ideal_step i b j -> ideal_run j l k -> ideal_run i (b :: l) k.
Definition fifo (l : list obs) : Prop := exists i, ideal_run (mkI [] []) l i.

(** Without flush: what was got is an initial part of what was put, in the same order. *)
Definition puts (l : list obs) : list content := flat_map (fun b => match b with BPut _ c => [c] | _ => [] end) l.
Definition gets (l : list obs) : list content := flat_map (fun b => match b with BGet (Some (_, c)) => [c] | _ => [] end) l.
