(** Observable effects of the executive's functions: which of them change node
    states, outbound queues, the trace; trace invariants. *)
From Verif Require Export ExecProofs2.

Section Obs.
Context {W : Type} (P : plan W).
Implicit Types (st : est W).

(** [st'] differs from [st] at most in queues, queue status, decided next
    states and reservations. *)
Record quiet st st' : Prop := {
  qt_trace : e_trace st' = e_trace st;
  qt_asg : e_asg st' = e_asg st; qt_ret : e_ret st' = e_ret st; qt_cmd : e_cmd st' = e_cmd st;
  qt_abt : e_abt st' = e_abt st; qt_upd : e_upd st' = e_upd st;
  qt_plans : e_plans st' = e_plans st; qt_deleted : e_deleted st' = e_deleted st;
  qt_world : e_world st' = e_world st;
  qt_fin : e_fin st' = e_fin st;
  qt_state : forall n, state st' n = state st n;
  qt_out : forall n, k_out (core st' n) = k_out (core st n);
  qt_fail : forall n, k_fail (core st' n) = k_fail (core st n);
  qt_ack : forall n, d_ack (e_nodes st' n) = d_ack (e_nodes st n);
  qt_abort : forall n, d_abort (e_nodes st' n) = d_abort (e_nodes st n);
  qt_handle : forall n, d_handle (e_nodes st' n) = d_handle (e_nodes st n) }.

Lemma quiet_refl st : quiet st st.
Proof. constructor; reflexivity. Qed.
Lemma quiet_trans a b c : quiet a b -> quiet b c -> quiet a c.
Proof. intros [] []; constructor; intros; try congruence; try (etransitivity; eauto). Qed.

Lemma quiet_set_queues st c p g : quiet st (set_queues st c p g (e_fin st)).
Proof. constructor; reflexivity. Qed.
Lemma quiet_set_res st r : quiet st (set_res st r).
Proof. constructor; reflexivity. Qed.
Lemma quiet_fail st e : quiet st (fail st e).
Proof. constructor; reflexivity. Qed.
Lemma quiet_setQs st x q : quiet st (setQs st x q).
Proof.
  constructor; try reflexivity; intro n; unfold state, core, setQs, upd; cbn;
  destruct (Nat.eqb_spec n x); subst; reflexivity.
Qed.
Lemma quiet_setCore st x k :
  k_state k = state st x -> k_out k = k_out (core st x) -> k_fail k = k_fail (core st x) ->
  quiet st (setCore st x k).
Proof.
  intros A B C; constructor; try reflexivity; intro n; unfold state, core, setCore, upd in *; cbn;
  destruct (Nat.eqb_spec n x); subst; auto.
Qed.
Lemma quiet_fold {A} (f : est W -> A -> est W) l : (forall st a, quiet st (f st a)) -> forall st, quiet st (fold_left f l st).
Proof.
  intros Hf. induction l as [|a l IH]; intro st; cbn; [apply quiet_refl|].
  eapply quiet_trans; [apply Hf|apply IH].
Qed.
Ltac qt := first [apply quiet_refl | apply quiet_setQs | apply quiet_set_queues | apply quiet_set_res | apply quiet_fail].

Lemma quiet_queues_setQs st x q c p g : quiet st (set_queues (setQs st x q) c p g (e_fin st)).
Proof. eapply quiet_trans; [apply quiet_setQs|]. apply (quiet_set_queues (setQs st x q)). Qed.
Lemma quiet_setQs_queues st x q c p g : quiet st (setQs (set_queues st c p g (e_fin st)) x q).
Proof. eapply quiet_trans; [apply (quiet_set_queues st c p g)|]. apply quiet_setQs. Qed.

Lemma quiet_notify st x : quiet st (notify st x).
Proof. unfold notify. destruct (qs st x); try qt. apply quiet_queues_setQs. Qed.
Lemma quiet_notifyAll st l : quiet st (notifyAll st l).
Proof. apply quiet_fold. apply quiet_notify. Qed.
Lemma quiet_notifyRes st x : quiet st (notifyRes st x).
Proof. unfold notifyRes. destruct (qs st x); qt. Qed.
Lemma quiet_addWaiting st r x : quiet st (addWaiting st r x).
Proof. unfold addWaiting. destruct (memb _ _); qt. Qed.
Lemma quiet_removeWaiting st r x : quiet st (removeWaiting st r x).
Proof. unfold removeWaiting. qt. Qed.
Lemma quiet_acquire st r x : quiet st (fst (acquire st r x)).
Proof.
  unfold acquire. destruct (r_holder _); cbn; [apply quiet_addWaiting|].
  eapply quiet_trans; [apply quiet_set_res|apply quiet_removeWaiting].
Qed.
Lemma quiet_release st r x : quiet st (release st r x).
Proof.
  unfold release. destruct (r_holder _) as [h|]; [|qt]. destruct (Nat.eqb h x); [|qt].
  eapply quiet_trans; [apply quiet_set_res|]. apply quiet_fold, quiet_notifyRes.
Qed.
Lemma quiet_releaseAll st x rs : quiet st (releaseAll st x rs).
Proof. apply quiet_fold. intros; apply quiet_release. Qed.
Lemma quiet_acquireAll x rs : forall st, quiet st (fst (acquireAll P st x rs)).
Proof.
  induction rs as [|r rs IH]; intro st; cbn; [qt|].
  pose proof (quiet_acquire st r x) as H. destruct (acquire st r x) as [st1 ok]; cbn in H.
  destruct ok; [eapply quiet_trans; [exact H|apply IH]|].
  cbn. destruct (r_holder _); [|exact H]. destruct (memb _ _); [|exact H].
  eapply quiet_trans; [exact H|qt].
Qed.
Lemma quiet_backOff x rs st : quiet st (backOff st x rs).
Proof.
  apply quiet_fold. intros s r. eapply quiet_trans; [|apply quiet_addWaiting].
  destruct (r_holder _); [|qt]. destruct (Nat.eqb _ _); [apply quiet_release|qt].
Qed.
Lemma quiet_tryAcquire st x : quiet st (fst (tryAcquire P st x)).
Proof.
  unfold tryAcquire. pose proof (quiet_acquireAll x (mutexes P x) st) as H1.
  destruct (acquireAll P st x (mutexes P x)) as [st1 ok1]; cbn in H1.
  set (q := if isAssignment P x then _ else _).
  assert (H2 : quiet st (fst q)).
  { unfold q. destruct (isAssignment P x); [|exact H1]. destruct ok1; cbn.
    - eapply quiet_trans; [exact H1|apply quiet_acquire].
    - eapply quiet_trans; [exact H1|apply quiet_addWaiting]. }
  destruct q as [st2 ok2]; cbn in *. destruct ok2; [exact H2|].
  eapply quiet_trans; [exact H2|apply quiet_backOff].
Qed.
Lemma quiet_removePending st x : quiet st (removePending P st x).
Proof.
  unfold removePending, releaseReservations.
  eapply quiet_trans; [|apply quiet_fold; intros; apply quiet_removeWaiting].
  destruct (isAssignment P x); [|apply quiet_setQs_queues].
  eapply quiet_trans; [|apply quiet_removeWaiting]. apply quiet_setQs_queues.
Qed.
Lemma quiet_addStateChange st x : quiet st (addStateChange st x).
Proof. unfold addStateChange. destruct (qs st x); try qt. apply quiet_queues_setQs. Qed.
Lemma quiet_addPending st x : quiet st (addPending P st x).
Proof. apply quiet_queues_setQs. Qed.
Lemma coreGetDest_keeps t par c k :
  let k' := fst (coreGetDest t par c k) in
  k_state k' = k_state k /\ k_out k' = k_out k /\ k_fail k' = k_fail k.
Proof.
  unfold coreGetDest. destruct (getDest _ _ _ _ _); cbn; auto.
Qed.
Lemma quiet_getDestNode st x : quiet st (fst (getDestNode P st x)).
Proof.
  unfold getDestNode.
  pose proof (coreGetDest_keeps (p_type P x) (option_map (state st) (parent P x)) (condsOf P st x) (core st x)) as H.
  destruct (coreGetDest _ _ _ _) as [k b]; cbn in *. apply quiet_setCore; tauto.
Qed.
Lemma quiet_checkEligible st x : quiet st (fst (checkEligible P st x)).
Proof.
  unfold checkEligible. destruct (qs st x); try qt.
  - pose proof (quiet_getDestNode st x) as H. destruct (getDestNode P st x) as [st1 go]; cbn in *.
    eapply quiet_trans; [|apply quiet_setQs]. eapply quiet_trans; [exact H|].
    destruct go; cbn; [|apply quiet_removePending]. destruct (negb _); [|qt].
    eapply quiet_trans; [apply quiet_removePending|apply quiet_addStateChange].
  - pose proof (quiet_getDestNode st x) as H. destruct (getDestNode P st x) as [st1 go]; cbn in *.
    destruct go; cbn; [|eapply quiet_trans; [exact H|apply quiet_removePending]].
    destruct (negb _); [|exact H]. cbn. eapply quiet_trans; [exact H|].
    eapply quiet_trans; [apply quiet_removePending|apply quiet_addStateChange].
Qed.
Lemma quiet_gather prio l : forall st acc, quiet st (fst (fst (gather P st prio l acc))).
Proof.
  induction l as [|x l IH]; intros st acc; cbn; [qt|].
  destruct (_ =? _)%Z; [|qt].
  pose proof (quiet_checkEligible st x) as H. destruct (checkEligible P st x) as [st1 ok]; cbn in *.
  destruct (memb _ _); [|exact H]. eapply quiet_trans; [exact H|apply IH].
Qed.
Lemma quiet_tryOne st x : quiet st (tryOne P st x).
Proof.
  unfold tryOne. pose proof (quiet_tryAcquire st x) as H. destruct (tryAcquire P st x) as [st1 ok]; cbn in *.
  eapply quiet_trans; [exact H|]. destruct ok; [|qt].
  eapply quiet_trans; [apply quiet_removePending|apply quiet_addStateChange].
Qed.
Lemma quiet_resolveLoop fuel : forall st l, quiet st (resolveLoop P fuel st l).
Proof.
  induction fuel as [|f IH]; intros st [|x l]; cbn [resolveLoop]; try qt.
  pose proof (quiet_gather (p_prio P x) (x :: l) st []) as H.
  destruct (gather P st _ _ _) as [[st1 acc] rest]; cbn [fst] in *.
  eapply quiet_trans; [exact H|]. eapply quiet_trans; [|apply IH]. apply quiet_fold, quiet_tryOne.
Qed.
Lemma quiet_resolve st : quiet st (resolve P st).
Proof. apply quiet_resolveLoop. Qed.
Lemma quiet_checkOne st : quiet st (checkOne P st).
Proof.
  unfold checkOne. destruct (e_cand st) as [|x cs]; [qt|].
  set (st0 := setQs _ _ _).
  assert (H0 : quiet st st0) by apply quiet_setQs_queues. clearbody st0.
  pose proof (quiet_getDestNode st0 x) as H. destruct (getDestNode P st0 x) as [st1 go]; cbn in *.
  eapply quiet_trans; [exact H0|]. destruct go; [|exact H].
  eapply quiet_trans; [exact H|]. destruct (_ && _); [apply quiet_addPending|apply quiet_addStateChange].
Qed.
Lemma quiet_leaveResources st x s nxt : quiet st (leaveResources P st x s nxt).
Proof.
  unfold leaveResources. destruct nxt; try qt.
  - destruct (isWaiting s); [qt|]. eapply quiet_trans; [|apply quiet_releaseAll].
    destruct (isAssignment P x); [apply quiet_release|qt].
  - set (st1 := if _ && _ then _ else _).
    assert (H : quiet st st1) by (unfold st1; destruct (_ && _); [apply quiet_release|qt]).
    destruct (isWaiting s); [|exact H]. eapply quiet_trans; [exact H|apply quiet_releaseAll].
Qed.
Lemma quiet_notifyKids st x nxt : quiet st (notifyKids P st x nxt).
Proof.
  unfold notifyKids. destruct (p_type P x); try qt.
  destruct nxt; try qt; apply quiet_fold; intros; destruct (nstate_eqb _ _); try apply quiet_notify; qt.
Qed.

(** What one transition does, as seen from outside. *)
Definition enq (c : bool) (l : list nat) x := if c then l ++ [x] else l.
Definition isTy (t : ntype) (u : ntype) : bool :=
  match t, u with
  | NList, NList | NEmpty, NEmpty | NAssignment, NAssignment | NCommand, NCommand | NUpdate, NUpdate => true
  | _, _ => false
  end.

Record moved st st' x (s nxt : nstate) : Prop := {
  mv_trace : e_trace st' = EvTrans x s nxt :: e_trace st;
  mv_state : forall n, state st' n = if Nat.eqb n x then nxt else state st n;
  mv_oth : forall n, n <> x -> k_out (core st' n) = k_out (core st n) /\ k_fail (core st' n) = k_fail (core st n);
  mv_asg : e_asg st' = enq (nstate_eqb nxt EXECUTING && isTy (p_type P x) NAssignment) (e_asg st) x;
  mv_cmd : e_cmd st' = enq (nstate_eqb nxt EXECUTING && isTy (p_type P x) NCommand) (e_cmd st) x;
  mv_upd : e_upd st' = enq (nstate_eqb nxt EXECUTING && isTy (p_type P x) NUpdate) (e_upd st) x;
  mv_ret : e_ret st' = enq (nstate_eqb nxt FAILING && isTy (p_type P x) NAssignment) (e_ret st) x;
  mv_abt : e_abt st' = enq (nstate_eqb nxt FAILING && isTy (p_type P x) NCommand) (e_abt st) x;
  mv_plans : e_plans st' = e_plans st; mv_deleted : e_deleted st' = e_deleted st;
  mv_world : e_world st' = p_effect P (e_world st) x s nxt;
  mv_fin : e_fin st' = enq (match parent P x with None => nstate_eqb nxt FINISHED | Some _ => false end) (e_fin st) x }.

Lemma moved_quiet_r st st1 st2 x s nxt : moved st st1 x s nxt -> quiet st1 st2 -> moved st st2 x s nxt.
Proof.
  intros [] []. constructor; intros; try congruence.
  - rewrite qt_state0. auto.
  - rewrite qt_out0, qt_fail0. auto.
Qed.
Lemma moved_quiet_l st st1 st2 x s nxt : quiet st st1 -> moved st1 st2 x s nxt -> moved st st2 x s nxt.
Proof.
  intros [] []. constructor; intros; try congruence.
  - rewrite mv_state0, qt_state0. reflexivity.
  - rewrite <- qt_out0, <- qt_fail0. auto.
Qed.

(** addFinished on a node that is in no other queue. *)
Lemma addFinished_obs st x : qs st x = QNone \/ qs st x = QCheck ->
  exists c, addFinished st x = set_queues (setQs st x QDelete) c (e_pend st) (e_chg st) (e_fin st ++ [x]).
Proof. unfold addFinished. intros [-> | ->]; eauto. Qed.

Lemma transition_moved st x pre post nxt :
  (qs st x = QNone \/ qs st x = QCheck) -> next st x = Some nxt -> nxt <> state st x ->
  In nxt (successors (p_type P x) (state st x)) ->
  QInv P st ->
  moved st (transition P st x pre post) x (state st x) nxt.
Proof.
  intros Hf Hn Hne Hs HQ. unfold transition. rewrite Hn.
  destruct (nstate_eqb nxt (state st x)) eqn:E1; [apply nstate_eqb_eq in E1; contradiction|].
  assert (Hin : inb nxt (successors (p_type P x) (state st x)) = true).
  { unfold inb. apply existsb_exists. exists nxt. split; [exact Hs|apply nstate_eqb_refl]. }
  rewrite Hin.
  set (s := state st x) in *.
  eapply moved_quiet_r; [|apply quiet_notifyAll].
  (* left part *)
  set (st1 := notifyAll st pre).
  assert (Q1 : quiet st st1) by apply quiet_notifyAll.
  assert (F1 : qs st1 x = QNone \/ qs st1 x = QCheck) by now apply notifyAll_free.
  assert (N1 : core st1 x = core st x) by apply (s_core _ _ _ (notifyAll_same pre st x)).
  assert (I1 : QInv P st1) by now apply notifyAll_QInv.
  clearbody st1.
  set (st2 := leaveResources P st1 x s nxt).
  assert (Q2 : quiet st st2) by (eapply quiet_trans; [exact Q1|apply quiet_leaveResources]).
  assert (F2 : (qs st2 x = QNone \/ qs st2 x = QCheck) /\ core st2 x = core st x).
  { rewrite <- N1. unfold st2, leaveResources.
    assert (R1 : forall st0 r, QInv P st0 -> (qs st0 x = QNone \/ qs st0 x = QCheck) ->
       QInv P (release st0 r x) /\ (qs (release st0 r x) x = QNone \/ qs (release st0 r x) x = QCheck) /\
       core (release st0 r x) x = core st0 x).
    { intros s1 r HQ1 F. destruct (release_spec P s1 r x HQ1) as (A1 & A2 & A3 & A4 & A5 & A6 & A7 & A8).
      cbn zeta in *. split; [exact A1|]. split; [|apply A3]. rewrite A7; tauto. }
    assert (R2 : forall st0 rs, QInv P st0 -> (qs st0 x = QNone \/ qs st0 x = QCheck) ->
       (qs (releaseAll st0 x rs) x = QNone \/ qs (releaseAll st0 x rs) x = QCheck) /\
       core (releaseAll st0 x rs) x = core st0 x).
    { intros s1 rs HQ1 F. destruct (releaseAll_spec P rs x s1 HQ1) as (A1 & A2 & A3 & A4 & A5 & A6 & A7 & A8).
      cbn zeta in *. split; [|apply A3]. rewrite A7; tauto. }
    destruct nxt; try (split; [exact F1|reflexivity]).
    - destruct (isWaiting s); [split; [exact F1|reflexivity]|]. destruct (isAssignment P x); [|now apply R2].
      destruct (R1 st1 (RVar (p_var P x)) I1 F1) as (A & B & C). destruct (R2 _ (mutexes P x) A B) as [D E].
      split; [exact D|]. rewrite E; exact C.
    - destruct (isAssignment P x && nstate_eqb s FAILING).
      + destruct (R1 st1 (RVar (p_var P x)) I1 F1) as (A & B & C). destruct (isWaiting s); [|auto].
        destruct (R2 _ (mutexes P x) A B) as [D E]. split; [exact D|]. rewrite E; exact C.
      + destruct (isWaiting s); [now apply R2|auto]. }
  clearbody st2. clear st1 Q1 F1 N1 I1. destruct F2 as [F2 N2].
  eapply moved_quiet_l; [exact Q2|].
  set (st3 := failEnqueue P st2 x nxt).
  assert (C3 : e_nodes st3 = e_nodes st2).
  { unfold st3, failEnqueue. destruct nxt; try reflexivity. destruct (p_type P x); reflexivity. }
  assert (C3' : core st3 x = core st x) by (rewrite <- N2; unfold core; rewrite C3; reflexivity).
  rewrite C3'.
  assert (Hk : k_state (coreTransition (core st x)) = nxt).
  { unfold coreTransition. unfold next in Hn. rewrite Hn. fold (state st x). fold s. rewrite E1. reflexivity. }
  set (k := coreTransition (core st x)) in *. clearbody k.
  set (st4 := setCore st3 x k).
  assert (S4 : forall n, state st4 n = if Nat.eqb n x then nxt else state st2 n).
  { intro n. unfold st4, state. rewrite core_setCore. destruct (Nat.eqb_spec n x); [exact Hk|]. unfold core; rewrite C3; reflexivity. }
  assert (O4 : forall n, n <> x -> core st4 n = core st2 n).
  { intros n Hn'. unfold st4. rewrite core_setCore. destruct (Nat.eqb_spec n x); [congruence|]. unfold core; rewrite C3; reflexivity. }
  assert (F4 : qs st4 x = QNone \/ qs st4 x = QCheck).
  { unfold st4. rewrite qs_setCore. unfold qs. rewrite C3. exact F2. }
  set (st5 := afterSetState P st4 x nxt).
  assert (H5 : (forall n, state st5 n = state st4 n) /\ (forall n, core st5 n = core st4 n) /\ e_trace st5 = e_trace st4 /\
      e_asg st5 = e_asg st4 /\ e_cmd st5 = e_cmd st4 /\ e_upd st5 = e_upd st4 /\ e_ret st5 = e_ret st4 /\ e_abt st5 = e_abt st4 /\
      e_plans st5 = e_plans st4 /\ e_deleted st5 = e_deleted st4 /\ e_world st5 = e_world st4 /\
      e_fin st5 = enq (match parent P x with None => nstate_eqb nxt FINISHED | Some _ => false end) (e_fin st4) x).
  { unfold st5, afterSetState.
    assert (Hnq : forall y, core (notify st4 x) y = core st4 y) by (intro y; apply (s_core _ _ _ (notify_same st4 x y))).
    pose proof (quiet_notify st4 x) as [].
    assert (Hnot : e_fin (notify st4 x) = e_fin st4) by assumption.
    destruct (parent P x); [cbn; repeat split; auto|].
    destruct nxt; try (cbn; repeat split; auto; fail).
    destruct (addFinished_obs st4 x F4) as [c ->].
    assert (Hc : forall n, core (set_queues (setQs st4 x QDelete) c (e_pend st4) (e_chg st4) (e_fin st4 ++ [x])) n = core st4 n)
      by (intro n; apply (core_setQs st4 x QDelete n)).
    repeat split; auto. intro n. unfold state. now rewrite Hc. }
  destruct H5 as (A1 & A2 & A3 & A4 & A5 & A6 & A7 & A8 & A9 & A10 & A11 & A12).
  clearbody st5.
  pose proof (quiet_notifyKids st5 x nxt) as Q6. set (st6 := notifyKids P st5 x nxt) in *. clearbody st6.
  assert (R : e_trace st3 = e_trace st2 /\ e_plans st3 = e_plans st2 /\ e_deleted st3 = e_deleted st2 /\
              e_world st3 = e_world st2 /\ e_fin st3 = e_fin st2 /\ e_asg st3 = e_asg st2 /\ e_cmd st3 = e_cmd st2 /\
              e_upd st3 = e_upd st2 /\
              e_ret st3 = enq (nstate_eqb nxt FAILING && isTy (p_type P x) NAssignment) (e_ret st2) x /\
              e_abt st3 = enq (nstate_eqb nxt FAILING && isTy (p_type P x) NCommand) (e_abt st2) x).
  { unfold st3, failEnqueue. destruct nxt; try (cbn; repeat split; reflexivity).
    destruct (p_type P x); cbn; repeat split; reflexivity. }
  destruct R as (R1 & R2 & R3 & R4 & R5 & R6 & R7 & R8 & R9 & R10).
  unfold st4 in *. cbn in A3, A4, A5, A6, A7, A8, A9, A10, A11, A12.
  destruct Q6.
  set (st7 := execEnqueue P (resetAcks st6 x nxt) x nxt).
  assert (T : e_trace st7 = e_trace st6 /\ e_plans st7 = e_plans st6 /\ e_deleted st7 = e_deleted st6 /\
              e_world st7 = e_world st6 /\ e_fin st7 = e_fin st6 /\ e_ret st7 = e_ret st6 /\ e_abt st7 = e_abt st6 /\
              e_asg st7 = enq (nstate_eqb nxt EXECUTING && isTy (p_type P x) NAssignment) (e_asg st6) x /\
              e_cmd st7 = enq (nstate_eqb nxt EXECUTING && isTy (p_type P x) NCommand) (e_cmd st6) x /\
              e_upd st7 = enq (nstate_eqb nxt EXECUTING && isTy (p_type P x) NUpdate) (e_upd st6) x /\
              (forall n, core st7 n = core st6 n)).
  { assert (Hc : forall n, core st7 n = core st6 n).
    { intro n. pose proof (inert_trans _ _ _ (resetAcks_inert st6 x nxt) (execEnqueue_inert P (resetAcks st6 x nxt) x nxt)) as [].
      apply in_core. }
    unfold st7, execEnqueue, resetAcks in *. destruct nxt; try (cbn; repeat split; auto; fail).
    destruct (p_type P x); cbn; repeat split; auto. }
  destruct T as (T1 & T2 & T3 & T4 & T5 & T6 & T7 & T8 & T9 & T10 & T11).
  clearbody st7.
  constructor; cbn.
  - congruence.
  - intro n. change (state st7 n = if Nat.eqb n x then nxt else state st2 n). unfold state at 1. rewrite T11.
    fold (state st6 n). rewrite qt_state0, A1. apply S4.
  - intros n Hne'. change (k_out (core st7 n) = k_out (core st2 n) /\ k_fail (core st7 n) = k_fail (core st2 n)).
    rewrite T11, qt_out0, qt_fail0, A2, (O4 n Hne'). auto.
  - rewrite T8, qt_asg0, A4, R6. reflexivity.
  - rewrite T9, qt_cmd0, A5, R7. reflexivity.
  - rewrite T10, qt_upd0, A6, R8. reflexivity.
  - rewrite T6, qt_ret0, A7, R9. reflexivity.
  - rewrite T7, qt_abt0, A8, R10. reflexivity.
  - congruence.
  - congruence.
  - rewrite T4, qt_world0, A11, R4. reflexivity.
  - rewrite T5, qt_fin0, A12, R5. reflexivity.
Qed.

Lemma transitionOne_moved st pre post x cs :
  Inv P st -> e_chg st = x :: cs ->
  exists nxt, next st x = Some nxt /\ In nxt (successors (p_type P x) (state st x)) /\ nxt <> state st x /\
    moved st (transitionOne P st pre post) x (state st x) nxt.
Proof.
  intros [HQ HC] Ec. unfold transitionOne. rewrite Ec.
  destruct (popChg_spec P st x cs HQ Ec) as (A1 & A2 & A3 & A4 & A5 & A6 & A7). cbn zeta in *.
  assert (Q0 : quiet st (setQs (set_queues st (e_cand st) (e_pend st) cs (e_fin st)) x QNone)) by apply quiet_setQs_queues.
  set (st0 := setQs _ _ _) in *. clearbody st0.
  set (st1 := match qs st x with QTransitionCheck => notify st0 x | _ => st0 end).
  assert (H1 : quiet st st1 /\ (qs st1 x = QNone \/ qs st1 x = QCheck) /\ QInv P st1 /\ core st1 x = core st x).
  { assert (G : quiet st st0 /\ (qs st0 x = QNone \/ qs st0 x = QCheck) /\ QInv P st0 /\ core st0 x = core st x) by auto.
    unfold st1. destruct (qs st x); try exact G.
    split; [eapply quiet_trans; [exact Q0|apply quiet_notify]|].
    split; [apply (notifyAll_free [x] st0 x); auto|]. split; [now apply notify_QInv|].
    rewrite (s_core _ _ _ (notify_same st0 x x)). apply A4. }
  clearbody st1. destruct H1 as (Q1 & F1 & I1 & C1).
  assert (Hin : In x (e_chg st)) by (rewrite Ec; now left).
  destruct (c_ready _ _ _ (HC x) Hin) as (nxt & Hn & G1 & G2 & _).
  exists nxt. split; [exact Hn|]. split; [exact G1|]. split; [exact G2|].
  eapply moved_quiet_l; [exact Q1|].
  replace (state st x) with (state st1 x) by (unfold state; now rewrite C1).
  apply transition_moved; auto; unfold next, state; rewrite C1; auto.
Qed.
End Obs.
