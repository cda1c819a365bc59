(** The executive's pending queue (ExecModel) is the list view of the pointer-level priority queue. *)
From Coq Require Import ZArith.
From Verif Require Import QueueProofs QueueProps ExecModel.

(** C12: the executive model's insertion and the pointer-level PriorityQueue::insert with
    PlexilExec.cc's PriorityCompare agree. *)
Theorem C12_exec_insert_is_pointer_insert : forall (W : Type) (P : plan W) (n : nat) (h : heap) (q : lq) (l : list nat),
  repr h q l -> NoDup l -> ~ In n l -> h n = None ->
  exists h' q', insert (ltP (p_prio P)) (size q) h q n = Ok (h', q') /\ repr h' q' (insertPrio P n l).
Proof.
  intros W P n h q l R N X E. apply QR_repr in R.
  destruct (insert_spec (ltP (p_prio P)) (size q) h q l n R X N E) as (h' & q' & K1 & K2 & _).
  { unfold size. rewrite (qr_count _ _ _ R). apply le_n. }
  exists h', q'. split; auto. apply QR_repr.
  replace (insertPrio P n l) with (ins (ltP (p_prio P)) n l); auto.
  clear. induction l; simpl; auto. unfold ltP at 1. rewrite IHl. auto.
Qed.
Print Assumptions C12_exec_insert_is_pointer_insert.
