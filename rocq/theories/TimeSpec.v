(** What "the time of the most recent entry into / exit from a state since the last reset" means,
    in terms of the history of a node (newest event first). *)
From Verif Require Export TimeModel.
Section Spec.
Context {T : Type}.
(** The node's state after a history: a node starts INACTIVE. *)
Fixpoint cur (h : list (top T)) : nstate :=
  match h with [] => INACTIVE | TTrans b _ :: _ => b | TEnsure _ _ :: r => cur r end.
(** A move from a to b is what timepoint (s, end?) is about: leaving s, or entering s. *)
Definition about (s : nstate) (e : bool) (a b : nstate) : Prop := if e then a = s else b = s.
(** [records s e h t]: at some point after somebody had asked for the timepoint the node left
    (entered) s at time t; since then it did not do so again, nor was it reset (moved to
    INACTIVE). *)
Inductive records (s : nstate) (e : bool) : list (top T) -> T -> Prop :=
| rec_now h b t : cur h <> b -> about s e (cur h) b -> In (TEnsure s e) h -> records s e (TTrans b t :: h) t
| rec_later h b u t : cur h <> b -> ~ about s e (cur h) b -> b <> INACTIVE -> records s e h t -> records s e (TTrans b u :: h) t
| rec_stay h u t : records s e h t -> records s e (TTrans (cur h) u :: h) t
| rec_ask h s' e' t : records s e h t -> records s e (TEnsure s' e' :: h) t.
(** The most recent change of state (None: never). *)
Inductive lastMove : list (top T) -> option T -> Prop :=
| lm_none : lastMove [] None
| lm_now h b t : cur h <> b -> lastMove (TTrans b t :: h) (Some t)
| lm_stay h u o : lastMove h o -> lastMove (TTrans (cur h) u :: h) o
| lm_ask h s e o : lastMove h o -> lastMove (TEnsure s e :: h) o.
End Spec.
