(** C28: the input queue is a lossless FIFO. *)
From Verif Require Import InputModel InputSpec InputProofs InputProofs2.

(** SimpleInputQueue: whatever the callers do with the entries they hold, no assertion fails and
    what they see is what an ideal queue would show: entries come out in the order in which they
    were put, once each, with the contents they were put with; a newly allocated entry is blank
    and in nobody else's hands. *)
Theorem C28_simple_fifo os q bs : shist os q bs -> fifo bs.
Proof. intros H. destruct (shist_SI _ _ _ H) as (i & _ & R). now exists i. Qed.
Theorem C28_simple_no_failure os q bs o : shist os q bs -> allowed q o -> opStep o q <> None.
Proof. intros H A. destruct (shist_SI _ _ _ H) as (i & S & _). destruct (SI_step q i o S A) as (q' & b & E & _). congruence. Qed.

(** SerializedInputQueue: the same for every interleaving, statement by statement, of any number
    of threads; observations in the order in which the calls released the mutex. *)
Theorem C28_threads_fifo h y : runs h y -> fifo (map snd (y_tr y)).
Proof. intros H. destruct (runs_SY _ _ H) as (s0 & c0 & Q & F & i & S). exists i. apply (z_run _ _ _ _ _ _ S). Qed.
Theorem C28_threads_no_failure h y t : runs h y -> y_pc y t <> Dead.
Proof. intros H. destruct (runs_SY _ _ H) as (s0 & c0 & Q & F & i & S). apply (z_dead _ _ _ _ _ _ S). Qed.
(** No entry is in two threads' hands. *)
Theorem C28_threads_exclusive h y t t' p : runs h y -> In p (y_own y t) -> In p (y_own y t') -> t = t'.
Proof. intros H. destruct (runs_SY _ _ H) as (s0 & c0 & Q & F & i & S). apply (z_excl _ _ _ _ _ _ S). Qed.
(** No deadlock as long as nobody calls flush: whenever a thread is inside a call, some thread
    can go on. *)
Theorem C28_threads_progress h y t : runs h y -> (forall t' a, In (t', a) h -> a <> CFlush) -> y_pc y t <> Idle ->
  exists t' y', mstep y t' Go = Some y'.
Proof.
  intros H NF NI. destruct (runs_SY _ _ H) as (s0 & c0 & Q & F & i & S).
  assert (FL : forall t', match y_pc y t' with F0 | F1 | F2 _ | F3 _ | F4 => False | _ => True end).
  { clear S NI. induction H as [|h y0 t0 a y1 R IH ST]; [cbn; auto|]. intros t'.
    assert (IH' := IH (fun t' a I => NF t' a (in_or_app _ _ _ (or_introl I)))). clear IH.
    assert (NA : a <> CFlush) by (apply (NF t0), in_or_app; right; now left).
    unfold mstep, lock, unlock in ST. specialize (IH' t0) as I0. specialize (IH' t').
    destruct (y_pc y0 t0) eqn:PC; destruct a; try discriminate ST; try tauto; try congruence;
      repeat match type of ST with
             | (if ?b then _ else _) = _ => destruct b; try discriminate ST
             | match ?b with Some _ => _ | None => _ end = _ => destruct b; try discriminate ST
             end; inversion ST; clear ST;
      unfold at_, withC, withS; cbn [y_pc]; auto; unfold upd; destruct (Nat.eqb t' t0); auto;
      repeat match goal with |- context[match ?x with Some _ => _ | None => _ end] => destruct x; auto end;
      destruct (oeq _ _); auto. }
  assert (AL : forall t', (y_lock y = None \/ y_lock y = Some t' /\ inside (y_pc y t') = true) -> y_pc y t' <> Idle -> exists y', mstep y t' Go = Some y').
  { intros t' L N. specialize (FL t'). pose proof (z_dead _ _ _ _ _ _ S t') as ND. unfold mstep, lock.
    destruct L as [L|[L L2]]; rewrite L; destruct (y_pc y t'); try discriminate L2; try tauto; eauto;
      repeat match goal with |- exists _, match ?r with Some _ => _ | None => _ end = _ => destruct r end; eauto. }
  destruct (y_lock y) as [hd|] eqn:L.
  - pose proof (z_lock _ _ _ _ _ _ S) as Z. rewrite L in Z. destruct Z as (_ & Z & _). exists hd. apply AL; auto. intros X. rewrite X in Z. discriminate.
  - exists t. apply AL; auto.
Qed.

(** In particular: what was got is an initial part of what was put, in order. *)
Theorem C28_delivered l i : ideal_run (mkI [] []) l i -> (forall b, In b l -> b <> BFlush) -> puts l = gets l ++ map snd (i_q i).
Proof.
  intros H. assert (G : forall i0 l0 i1, ideal_run i0 l0 i1 -> (forall b, In b l0 -> b <> BFlush) -> map snd (i_q i0) ++ puts l0 = gets l0 ++ map snd (i_q i1)).
  { clear. induction 1; intros NF; cbn.
    - now rewrite app_nil_r.
    - specialize (IHideal_run (fun b I => NF b (or_intror I))). inversion H; subst; cbn in *; auto.
      + rewrite map_app, <- app_assoc in IHideal_run. exact IHideal_run.
      + rewrite H1. cbn. f_equal. exact IHideal_run.
      + exfalso. apply (NF BFlush); auto. }
  intros NF. apply (G (mkI [] []) l i H NF).
Qed.

(** SerializedInputQueue::flush on a non-empty queue locks the mutex twice (via release): the
    calling thread blocks forever holding it, and no call on the queue ever completes again. *)
Inductive continues : sys -> sys -> Prop :=
| co_refl y : continues y y
| co_step y y1 t a y2 : continues y y1 -> mstep y1 t a = Some y2 -> continues y y2.
Theorem C28_flush_deadlock_refuted : exists h y, runs h y /\ (exists t c, In (t, CFlush) h /\ y_tr y = [(t, BAlloc 0 blank); (t, BPut 0 c)]) /\
  forall y', continues y y' -> y_tr y' = y_tr y.
Proof.
  set (c := mkC Q_MARK (USeq 1) (VUnk UNKNOWN_TYPE)).
  pose (h := [(0, CAlloc); (0, Go); (0, Go); (0, Go); (0, Go); (0, CInit 0 c); (0, CPut 0); (0, Go); (0, Go); (0, Go); (0, Go); (0, Go); (0, Go);
              (0, CFlush); (0, Go); (0, Go); (0, Go)]).
  assert (RR : forall l l0 y0, runs l0 y0 -> forall y1, fold_left (fun o ta => match o with Some y => mstep y (fst ta) (snd ta) | None => None end) l (Some y0) = Some y1 -> runs (l0 ++ l) y1).
  { assert (N0 : forall l, fold_left (fun o ta => match o with Some y => mstep y (fst ta) (snd ta) | None => None end) l (None : option sys) = None) by (induction l; cbn; auto).
    induction l as [|[t a] l IH]; intros l0 y0 R y1 E; [inversion E; subst; now rewrite app_nil_r|]. cbn [fold_left fst snd] in E.
    destruct (mstep y0 t a) as [y2|] eqn:M; [|rewrite N0 in E; discriminate]. change ((t, a) :: l) with ([(t, a)] ++ l). rewrite app_assoc. eapply IH; [|exact E].
    econstructor; eauto. }
  set (y := match fold_left (fun o ta => match o with Some y => mstep y (fst ta) (snd ta) | None => None end) h (Some sys0) with Some y => y | None => sys0 end).
  exists h, y. split. { apply (RR h [] sys0); [constructor|]. vm_compute. reflexivity. }
  split. { exists 0, c. split; [vm_compute; tauto|]. vm_compute. reflexivity. }
  assert (RY : runs h y). { apply (RR h [] sys0); [constructor|]. vm_compute. reflexivity. }
  assert (I0 : y_lock y = Some 0 /\ y_pc y 0 = F3 0) by (vm_compute; auto). destruct I0 as [L0 P0]. clearbody y h. clear RR.
  assert (N0 : forall t, t <> 0 -> inside (y_pc y t) = false).
  { destruct (runs_SY _ _ RY) as (s0 & c0 & Q & F & i & S). pose proof (z_lock _ _ _ _ _ _ S) as Z. rewrite L0 in Z. apply Z. }
  intros y' C. enough (G : y_tr y' = y_tr y /\ y_lock y' = Some 0 /\ y_pc y' 0 = F3 0 /\ (forall t, t <> 0 -> inside (y_pc y' t) = false)) by tauto.
  clear RY. induction C as [|y y1 t a y2 C IH ST]; [auto|].
  destruct (IH L0 P0 N0) as (T & L & P & NI). clear IH. unfold mstep, lock in ST. rewrite L in ST.
  destruct (Nat.eq_dec t 0) as [->|N]; [rewrite P in ST; destruct a; discriminate|].
  specialize (NI t N) as IN. assert (E0 : Nat.eqb 0 t = false) by (apply Nat.eqb_neq; auto).
  destruct (y_pc y1 t) eqn:PC; try discriminate IN; destruct a; try discriminate ST;
    repeat match type of ST with (if ?b then _ else _) = _ => destruct b; try discriminate ST end; inversion ST; clear ST;
    (split; [exact T|]; split; [exact L|]; split; [unfold at_, withC; cbn [y_pc]; unfold upd; rewrite ?E0; exact P|];
     intros t' N'; unfold at_, withC; cbn [y_pc]; unfold upd; destruct (Nat.eqb t' t); auto).
Qed.

(** ** Non-vacuity *)
(** Two threads put one entry each with interleaved statements, a third gets both in order. *)
Example C28_two_producers :
  let c1 := mkC Q_MARK (USeq 1) (VUnk UNKNOWN_TYPE) in
  let c2 := mkC Q_COMMAND_ACK (UCommand 5) (VHandle 2) in
  let rep t n := repeat (t, Go) n in
  let h := [(1, CAlloc); (2, CAlloc); (1, Go); (1, Go); (1, Go); (1, Go)] ++ rep 2 4 ++ [(2, CInit 1 c2); (1, CInit 0 c1); (2, CPut 1); (1, CPut 0); (2, Go); (2, Go); (2, Go); (2, Go); (2, Go); (2, Go)]
           ++ rep 1 6 ++ [(3, CGet)] ++ rep 3 5 ++ [(3, CGet)] ++ rep 3 6 in
  match fold_left (fun o ta => match o with Some y => mstep y (fst ta) (snd ta) | None => None end) h (Some sys0) with
  | Some y => y_tr y = [(1, BAlloc 0 blank); (2, BAlloc 1 blank); (2, BPut 1 c2); (1, BPut 0 c1); (3, BGet (Some (1, c2))); (3, BGet (Some (0, c1)))]
  | None => False
  end.
Proof. vm_compute. reflexivity. Qed.
Example C28_simple_example :
  let c1 := mkC Q_MARK (USeq 1) (VUnk UNKNOWN_TYPE) in
  exists q, shist [OAlloc; OAlloc; OInit 0 c1; OPut 0; OGet] q [BAlloc 0 blank; BAlloc 1 blank; BPut 0 c1; BGet (Some (0, c1))].
Proof.
  intros c1.
  pose proof (SH_snoc _ _ _ OAlloc _ _ SH_nil I eq_refl) as H1.
  pose proof (SH_snoc _ _ _ OAlloc _ _ H1 I eq_refl) as H2.
  pose proof (SH_snoc _ _ _ (OInit 0 c1) _ _ H2 (or_intror (or_introl eq_refl)) eq_refl) as H3.
  pose proof (SH_snoc _ _ _ (OPut 0) _ _ H3 (or_intror (or_introl eq_refl)) eq_refl) as H4.
  pose proof (SH_snoc _ _ _ OGet _ _ H4 I eq_refl) as H5.
  eexists. exact H5.
Qed.

(** Assumptions *)
Print Assumptions C28_simple_fifo.
Print Assumptions C28_simple_no_failure.
Print Assumptions C28_threads_fifo.
Print Assumptions C28_threads_no_failure.
Print Assumptions C28_threads_exclusive.
Print Assumptions C28_threads_progress.
Print Assumptions C28_delivered.
Print Assumptions C28_flush_deadlock_refuted.
