(** Properties of the executive.  [run env P l (e0 w)] ranges over every state the
    exec can reach: any plan set [P], any world, any sequence [l] of loop turns
    and outside events, any sets of notified nodes. *)
From Verif Require Export ExecLimbo ExecExamples.

(** The calls made from outside: add a plan, publish a change of the world,
    acknowledge, delete finished plans. *)
Definition external (a : action) : bool :=
  match a with
  | AAddPlan _ _ | AEnv _ _ | AUpdateAck _ _ | ACommandHandle _ _ _ | ACommandAbortAck _ _ | ADelete => true
  | _ => false
  end.
(** Reachability through the API: outside events and whole calls of step(). *)
Inductive reachable {W} (P : plan W) (env : nat -> W -> W) : est W -> Prop :=
| re_init w : reachable P env (e0 w)
| re_event st a : external a = true -> reachable P env st -> reachable P env (act env P st a)
| re_step st st' pol fuel : reachable P env st -> macroStep P pol fuel st = Some st' -> reachable P env st'.

(** Everything reachable through the API is a [run]. *)
Theorem reachable_run {W} (P : plan W) env st : reachable P env st -> exists w l, st = run env P l (e0 w).
Proof.
  induction 1 as [w|st a _ _ (w & l & ->)|st st' pol fuel _ (w & l & ->) E].
  - exists w, []. reflexivity.
  - exists w, (l ++ [a]). now rewrite run_app.
  - destruct (steps_macroStep P env pol fuel _ _ E) as [l' ->]. exists w, (l ++ l'). now rewrite run_app.
Qed.

Theorem reachable_at_rest {W} (P : plan W) env st : reachable P env st -> at_rest P env st.
Proof.
  induction 1 as [w|st a Ha _ H|st st' pol fuel _ H E].
  - apply ar_init.
  - apply ar_ext; [now destruct a|exact H].
  - eapply at_rest_macroStep; eauto.
Qed.

(** ------------------------------------------------------------------ C04 *)
Lemma NoDup_app' {A} (l l' : list A) : NoDup l -> NoDup l' -> (forall x, In x l -> ~ In x l') -> NoDup (l ++ l').
Proof.
  intros H1 H2 H3. induction l as [|a l IH]; cbn; [exact H2|]. inversion H1; subst. constructor.
  - rewrite in_app_iff. intros [H|H]; [contradiction|]. exact (H3 a (or_introl eq_refl) H).
  - apply IH; auto. intros x Hx. apply H3. now right.
Qed.

Theorem C04_one_queue {W} (P : plan W) env l w :
  let st := run env P l (e0 w) in
  NoDup (e_cand st ++ e_pend st ++ e_chg st ++ e_fin st).
Proof.
  cbn zeta. destruct (run_Inv P env l w) as [HQ _]. set (st := run env P l (e0 w)) in *. clearbody st. destruct HQ.
  apply NoDup_app'; [assumption| |].
  - apply NoDup_app'; [assumption| |].
    + apply NoDup_app'; [assumption|assumption|]. intros n Hn Hf. apply q_chg in Hn. apply q_fin in Hf.
      unfold isTransQ in Hn. intuition congruence.
    + intros n Hn. rewrite in_app_iff. intros [H|H].
      * apply q_chg in H. tauto.
      * apply q_pend in Hn. apply q_fin in H. unfold isPendingQ in Hn. intuition congruence.
  - intros n Hn. rewrite !in_app_iff. apply q_cand in Hn. intros [H|[H|H]].
    + apply q_pend in H. unfold isPendingQ in H. intuition congruence.
    + apply q_chg in H. unfold isTransQ in H. intuition congruence.
    + apply q_fin in H. congruence.
Qed.

Theorem C04_status_names_queue {W} (P : plan W) env l w n :
  let st := run env P l (e0 w) in
  (qs st n = QCheck <-> In n (e_cand st)) /\
  (qs st n = QTransition \/ qs st n = QTransitionCheck -> In n (e_chg st)) /\
  (qs st n = QPendingTry \/ qs st n = QPendingTryCheck -> In n (e_pend st)) /\
  (In n (e_pend st) -> qs st n = QPending \/ qs st n = QPendingCheck \/ qs st n = QPendingTry \/ qs st n = QPendingTryCheck) /\
  (In n (e_fin st) -> qs st n = QDelete) /\
  (qs st n = QNone -> ~ In n (e_cand st ++ e_pend st ++ e_chg st ++ e_fin st)).
Proof.
  cbn zeta. destruct (run_Inv P env l w) as [HQ _]. set (st := run env P l (e0 w)) in *. clearbody st. destruct HQ.
  split; [symmetry; apply q_cand|]. split; [apply q_trans|]. split; [apply q_try|].
  split; [intro H; apply q_pend in H; unfold isPendingQ in H; tauto|]. split; [apply q_fin|].
  intros Hq. rewrite !in_app_iff, q_cand. intros [H|[H|[H|H]]]; [congruence| | |].
  - apply q_pend in H. unfold isPendingQ in H. intuition congruence.
  - apply q_chg in H. unfold isTransQ in H. intuition congruence.
  - apply q_fin in H. congruence.
Qed.
Example C04_example : match demo1 with Some st => e_pend st = [4] /\ qs st 4 = QPending | None => False end.
Proof. vm_compute. auto. Qed.


(** Example states are reachable. *)
Definition okR {W} (P : plan W) env (o : option (est W)) : Prop :=
  match o with Some st => reachable P env st | None => True end.
Lemma okR_start P : okR P envSet start.
Proof. cbn. apply re_init. Qed.
Lemma okR_act P a o : external a = true -> okR P envSet o -> okR P envSet (doAct P a o).
Proof. intro. destruct o as [st|]; cbn; [|auto]. now apply re_event. Qed.
Lemma okR_step P pol o : okR P envSet o -> okR P envSet (stepN P pol o).
Proof.
  destruct o as [st|]; unfold stepN; [|auto]. intro H. unfold okR.
  destruct (macroStep P pol 100 st) as [st'|] eqn:E; [|exact I]. eapply re_step; eauto.
Qed.
Lemma okR_use {W} (P : plan W) env o (Q : est W -> Prop) :
  okR P env o -> match o with Some st => Q st | None => False end -> exists st, reachable P env st /\ Q st.
Proof. destruct o as [st|]; cbn; [eauto|contradiction]. Qed.
Ltac okR := repeat match goal with
  | |- okR _ _ (stepN _ _ _) => apply okR_step
  | |- okR _ _ (doAct _ _ _) => apply okR_act; [reflexivity|]
  | |- okR _ _ start => apply okR_start
  end.

Lemma demo1_ok : okR demo envSet demo1. Proof. unfold demo1. okR. Qed.
Lemma demo2_ok : okR demo envSet demo2. Proof. unfold demo2. okR. apply demo1_ok. Qed.
Lemma demo3_ok : okR demo envSet demo3. Proof. unfold demo3. okR. apply demo2_ok. Qed.
Lemma leak1_ok : okR leak envSet leak1. Proof. unfold leak1. okR. Qed.
Lemma leak2_ok : okR leak envSet leak2. Proof. unfold leak2. okR. apply leak1_ok. Qed.
Lemma leak3_ok : okR leak envSet leak3. Proof. unfold leak3. okR. apply leak2_ok. Qed.
Lemma limbo1_ok : okR limboP envSet limbo1. Proof. unfold limbo1. okR. Qed.
Lemma limbo2_ok : okR limboP envSet limbo2. Proof. unfold limbo2. okR. apply limbo1_ok. Qed.
Lemma limbo3_ok : okR limboP envSet limbo3. Proof. unfold limbo3. okR. apply limbo2_ok. Qed.
Lemma limbo4_ok : okR limboP envSet limbo4. Proof. unfold limbo4. okR. apply limbo3_ok. Qed.
Lemma try2_ok : okR tryP envSet try2. Proof. unfold try2, try1. okR. Qed.

(** The status PENDING alone does not place a node on the pending queue: a
    reachable state, between two calls of step(), in which a node's status is
    PENDING and it is in no queue at all. *)
Theorem C04_pending_status_refuted :
  exists (P : plan nat) env st n, reachable P env st /\
  qs st n = QPending /\ ~ In n (e_cand st ++ e_pend st ++ e_chg st ++ e_fin st).
Proof.
  exists limboP, envSet.
  destruct (okR_use limboP envSet limbo2 (fun st => qs st 1 = QPending /\ ~ In 1 (e_cand st ++ e_pend st ++ e_chg st ++ e_fin st)) limbo2_ok)
    as (st & R & H).
  - vm_compute. intuition discriminate.
  - exists st, 1. auto.
Qed.
Print Assumptions C04_one_queue.
Print Assumptions C04_status_names_queue.
Print Assumptions C04_pending_status_refuted.

(** ------------------------------------------------------------------ C05 *)
(** Two nodes that share a mutex, or assign the same variable, are never both
    EXECUTING, FINISHING or FAILING. *)
Definition active (s : nstate) : Prop := s = EXECUTING \/ s = FINISHING \/ s = FAILING.
Lemma active_running s : active s <-> running s = true.
Proof. unfold active. destruct s; cbn; intuition discriminate. Qed.

Theorem C05_mutual_exclusion {W} (P : plan W) env l w a b m :
  let st := run env P l (e0 w) in
  In m (p_mutex P a) -> In m (p_mutex P b) ->
  active (state st a) -> active (state st b) -> a = b.
Proof.
  cbn zeta. intros Ha Hb. rewrite !active_running. intros Sa Sb. destruct (run_Inv P env l w) as [_ HC].
  assert (Na : In (RMutex m) (needs P a)) by (unfold needs, mutexes; rewrite in_app_iff, in_map_iff; left; eauto).
  assert (Nb : In (RMutex m) (needs P b)) by (unfold needs, mutexes; rewrite in_app_iff, in_map_iff; left; eauto).
  pose proof (c_run _ _ _ (HC a) Sa _ Na). pose proof (c_run _ _ _ (HC b) Sb _ Nb). congruence.
Qed.
Theorem C05_one_assignment_per_variable {W} (P : plan W) env l w a b :
  let st := run env P l (e0 w) in
  p_type P a = NAssignment -> p_type P b = NAssignment -> p_var P a = p_var P b ->
  active (state st a) -> active (state st b) -> a = b.
Proof.
  cbn zeta. intros Ta Tb E. rewrite !active_running. intros Sa Sb. destruct (run_Inv P env l w) as [_ HC].
  assert (Na : In (RVar (p_var P a)) (needs P a)) by (unfold needs, isAssignment; rewrite in_app_iff, Ta; right; now left).
  assert (Nb : In (RVar (p_var P a)) (needs P b)) by (unfold needs, isAssignment; rewrite in_app_iff, Tb, E; right; now left).
  pose proof (c_run _ _ _ (HC a) Sa _ Na). pose proof (c_run _ _ _ (HC b) Sb _ Nb). congruence.
Qed.
(** Two nodes contending for one mutex: one runs, the other waits. *)
Example C05_example : match demo1 with
  | Some st => In 0 (p_mutex demo 4) /\ In 0 (p_mutex demo 5) /\ active (state st 5) /\ state st 4 = WAITING
  | None => False end.
Proof. vm_compute. auto 10. Qed.
Print Assumptions C05_mutual_exclusion.
Print Assumptions C05_one_assignment_per_variable.

(** ------------------------------------------------------------------ C06 *)
(** A node in ITERATION_ENDED or FINISHED (or not yet started, and not selected
    to start) holds nothing unless it once went straight from EXECUTING or
    FAILING to FINISHED. *)
Theorem C06_released_partial {W} (P : plan W) env l w n r :
  let st := run env P l (e0 w) in
  r_holder (e_res st r) = Some n -> ~ active (state st n) -> ~ In n (e_chg st) ->
  exists m, r = RMutex m /\
    (In (EvTrans n EXECUTING FINISHED) (e_trace st) \/ In (EvTrans n FAILING FINISHED) (e_trace st)).
Proof.
  cbn zeta. intros H Ha Hc. rewrite active_running in Ha.
  destruct (run_HInv P env l w n r H) as [A|[[A _]|[A B]]]; [contradiction|contradiction|].
  destruct r as [m|v]; [|destruct A]. exists m. split; [reflexivity|exact B].
Qed.
Example C06_example : match demo3 with
  | Some st => map (fun n => r_holder (e_res st (RMutex n))) [0] = [None] /\ state st 5 = FINISHED | None => False end.
Proof. vm_compute. auto. Qed.
(** The English claim is false: a node that has FINISHED still holds its mutex,
    and another node, eligible to run, waits for it. *)
Theorem C06_refuted :
  exists (P : plan nat) env st n m b, reachable P env st /\
    state st n = FINISHED /\ r_holder (e_res st (RMutex m)) = Some n /\
    b <> n /\ In b (e_pend st) /\ In b (r_waiters (e_res st (RMutex m))) /\ e_cand st = [].
Proof.
  exists leak, envSet.
  destruct (okR_use leak envSet leak3 (fun st => state st 1 = FINISHED /\ r_holder (e_res st (RMutex 0)) = Some 1 /\
    2 <> 1 /\ In 2 (e_pend st) /\ In 2 (r_waiters (e_res st (RMutex 0))) /\ e_cand st = []) leak3_ok) as (st & R & H).
  - vm_compute. intuition discriminate.
  - exists st, 1, 0, 2. tauto.
Qed.
Print Assumptions C06_released_partial.
Print Assumptions C06_refuted.

(** ------------------------------------------------------------------ C07 *)
(** One attempt to acquire: [needs P n] are the node's mutexes and, for an
    Assignment, its variable. *)
Theorem C07_all_or_nothing {W} (P : plan W) env l w n :
  let st := run env P l (e0 w) in
  In n (e_pend st) ->
  let '(st', ok) := tryAcquire P st n in
  (ok = true -> forall r, In r (needs P n) -> r_holder (e_res st r) = None /\ r_holder (e_res st' r) = Some n) /\
  (ok = false -> forall r, In r (needs P n) -> In n (r_waiters (e_res st' r))) /\
  (ok = false -> forall m, In m (p_mutex P n) -> r_holder (e_res st' (RMutex m)) <> Some n) /\
  (forall r b, b <> n -> r_holder (e_res st r) = Some b -> r_holder (e_res st' r) = Some b) /\
  (forall r, ~ In r (needs P n) -> r_holder (e_res st' r) = r_holder (e_res st r)).
Proof.
  cbn zeta. intros Hn. pose proof (proj1 (run_Inv P env l w)) as HQ. set (st := run env P l (e0 w)) in *. clearbody st.
  destruct (tryAcquire_spec P st n HQ Hn) as (A1 & A2 & A3 & A4 & A5 & A6 & A7).
  destruct (tryAcquire_spec2 P st n HQ Hn) as (B1 & B2 & B3 & B4 & B5 & B6).
  destruct (tryAcquire P st n) as [st' ok]; cbn [fst snd] in *; cbn zeta in *.
  unfold holder, waiters in *.
  split; [intros E r Hr; split; auto|]. split; [auto|].
  split; [intros E m Hm; apply B3; auto; apply in_map; exact Hm|].
  split; [|exact B1]. intros r b Hb Hh. apply (s_hold _ _ _ (A2 b Hb)). exact Hh.
Qed.
(** The losing competitor of the demo plan holds nothing and is registered. *)
Example C07_example : match demo1 with
  | Some st => In 4 (e_pend st) /\ snd (tryAcquire demo st 4) = false /\ r_holder (e_res st (RMutex 0)) = Some 5
  | None => False end.
Proof. vm_compute. auto. Qed.
Example C07_example_ok : match demo2 with
  | Some st => let st := addPending demo st 4 in snd (tryAcquire demo (set_res st (fun _ => mkRes None [4])) 4) = true | None => False end.
Proof. vm_compute. auto. Qed.
(** A node that names the same mutex twice never gets it, even though nobody holds it. *)
Theorem C07_duplicate_mutex_refuted :
  exists (P : plan nat) (st : est nat) n, In n (e_pend st) /\ (forall r, r_holder (e_res st r) = None) /\
  snd (tryAcquire P st n) = false.
Proof.
  exists (mkP [0] (fun _ => NEmpty) (fun _ => None) (fun _ => [0; 0]) (fun _ _ => false) (fun _ _ _ _ => None)).
  eexists (addPending _ (e0 0) 0), 0. Unshelve. 2:{ exact (mkP [0] (fun _ => NEmpty) (fun _ => None) (fun _ => [0; 0]) (fun _ _ => false) (fun _ _ _ _ => None)). }
  vm_compute. auto.
Qed.
Print Assumptions C07_all_or_nothing.

(** ------------------------------------------------------------------ C08 *)
(** Releasing a resource marks every node registered for it for another try. *)
Theorem C08_release_wakes_waiters {W} (P : plan W) env l w r h n :
  let st := run env P l (e0 w) in
  r_holder (e_res st r) = Some h -> In n (r_waiters (e_res st r)) ->
  let st' := release st r h in
  r_holder (e_res st' r) = None /\ (qs st' n = QPendingTry \/ qs st' n = QPendingTryCheck) /\ In n (e_pend st').
Proof.
  cbn zeta. intros Hh Hn. pose proof (proj1 (run_Inv P env l w)) as HQ. set (st := run env P l (e0 w)) in *. clearbody st.
  pose proof (q_wait _ _ HQ r n Hn) as [Hp _].
  destruct (q_pend _ _ HQ n Hp) as [Hq _].
  unfold release. rewrite Hh, Nat.eqb_refl. set (st1 := set_res _ _).
  destruct (fold_notifyRes_qs (r_waiters (e_res st r)) st1 n) as (A & B & C & D & E & F). cbn zeta in *.
  split; [rewrite A; cbn; unfold updr; now rewrite res_eqb_refl|].
  assert (E1 : qs st1 n = qs st n) by reflexivity.
  rewrite B. split; [|exact Hp]. rewrite E1 in *.
  specialize (F Hn). unfold isPendingQ in Hq. unfold parked in F.
  destruct E as [E|[_ E]]; [|tauto]. rewrite E in *. tauto.
Qed.

(** A node on the pending queue that is not marked for another try has a reason
    to wait: some resource it needs is held by another node and it is registered
    with that resource (mutex lists without duplicates; a node that once went
    straight to FINISHED while holding mutexes, cf. C06, may wait for itself). *)
Theorem C08_pending_has_reason_partial {W} (P : plan W) env l w n :
  let st := run env P l (e0 w) in
  (forall x, NoDup (p_mutex P x)) ->
  In n (e_pend st) ->
  (qs st n = QPendingTry \/ qs st n = QPendingTryCheck) \/
  (exists r h, In r (needs P n) /\ r_holder (e_res st r) = Some h /\ h <> n /\ In n (r_waiters (e_res st r))) \/
  (In (EvTrans n EXECUTING FINISHED) (e_trace st) \/ In (EvTrans n FAILING FINISHED) (e_trace st)).
Proof.
  cbn zeta. intros Hnd Hn. pose proof (proj1 (q_pend _ _ (proj1 (run_Inv P env l w)) n Hn)) as Hq.
  unfold isPendingQ in Hq.
  assert (D : (qs (run env P l (e0 w)) n = QPendingTry \/ qs (run env P l (e0 w)) n = QPendingTryCheck) \/ parked (qs (run env P l (e0 w)) n))
    by (unfold parked; tauto).
  destruct D as [D|D]; [auto|right]. destruct (run_WInv P env l w Hnd n Hn D) as [H|H]; [left|right]; exact H.
Qed.
Example C08_example : match demo1 with
  | Some st => In 4 (e_pend st) /\ qs st 4 = QPending /\ In 4 (r_waiters (e_res st (RMutex 0))) /\ r_holder (e_res st (RMutex 0)) = Some 5
  | None => False end.
Proof. vm_compute. auto 10. Qed.

(** Lost wake-up: in a reachable state between steps, node [n] is eligible to
    run, nobody holds any mutex, and yet no future event whatsoever makes the
    executive look at it again. *)
Theorem C08_lost_forever_refuted :
  exists (P : plan nat) env st n, reachable P env st /\
    state st n = WAITING /\ (exists o f, decision P st n = DGo EXECUTING o f) /\
    (forall m, In m (p_mutex P n) -> r_holder (e_res st (RMutex m)) = None) /\
    forall (env' : nat -> nat -> nat) l, let st' := run env' P l st in
      state st' n = WAITING /\ ~ In n (e_cand st' ++ e_pend st' ++ e_chg st').
Proof.
  exists limboP, envSet.
  destruct (okR_use limboP envSet limbo4 (fun st => (qs st 1 = QPending \/ qs st 1 = QPendingCheck) /\ ~ In 1 (e_pend st) /\ ~ In 1 (e_chg st) /\
     state st 1 = WAITING /\ (exists o f, decision limboP st 1 = DGo EXECUTING o f) /\ r_holder (e_res st (RMutex 0)) = None) limbo4_ok)
    as (st & R & (H1 & H2 & H3 & H4 & H5 & H6)).
  - vm_compute. intuition (try discriminate); eauto.
  - exists st, 1. split; [exact R|]. split; [exact H4|]. split; [exact H5|]. split.
    + intros m [<-|[]]. exact H6.
    + destruct (reachable_run _ _ _ R) as (w & l0 & E).
      assert (HI : Inv limboP st) by (rewrite E; apply run_Inv).
      intros env' l. cbn zeta.
      assert (L : limbo 1 WAITING st).
      { constructor; auto. intros r Hr. apply (q_wait _ _ (proj1 HI)) in Hr. tauto. }
      pose proof (limbo_forever limboP env' 1 WAITING l st HI L) as [A B C D E'].
      split; [exact D|]. rewrite !in_app_iff. intros [F|[F|F]]; [|tauto|tauto].
      assert (HI' : Inv limboP (run env' limboP l st)) by now apply run_Inv_from.
      apply (q_cand _ _ (proj1 HI')) in F. destruct A; congruence.
Qed.

(** Untried: step() has returned and the executive asks for no further step,
    although a pending node is eligible and its mutex is free. *)
Theorem C08_untried_refuted :
  exists (P : plan nat) env st n, reachable P env st /\
    needsStep st = false /\ In n (e_pend st) /\ (exists o f, decision P st n = DGo EXECUTING o f) /\
    (forall r, In r (needs P n) -> r_holder (e_res st r) = None).
Proof.
  exists tryP, envSet.
  destruct (okR_use tryP envSet try2 (fun st => needsStep st = false /\ In 2 (e_pend st) /\ (exists o f, decision tryP st 2 = DGo EXECUTING o f) /\
     r_holder (e_res st (RMutex 0)) = None) try2_ok) as (st & R & (H1 & H2 & H3 & H4)).
  - vm_compute. intuition eauto.
  - exists st, 2. repeat (split; [assumption|]). intros r [<-|[]]. exact H4.
Qed.
Print Assumptions C08_release_wakes_waiters.
Print Assumptions C08_pending_has_reason_partial.
Print Assumptions C08_lost_forever_refuted.
Print Assumptions C08_untried_refuted.

(** ------------------------------------------------------------------ C09 *)
(** The conditions a list passes on can only come from itself and its ancestors. *)
Definition plain {W} (P : plan W) (n : nat) : Prop :=
  p_has P n UExit = false /\ p_has P n UInv = false /\ p_has P n UEnd = false.

Lemma plain_kids {W} (P : plan W) st l : (forall q, In q l -> plain P q) ->
  kidExit P st l = None /\ kidInv P st l = None /\ kidEnd P st l = None.
Proof.
  induction l as [|q l IH]; cbn; intro H; [auto|]. destruct IH as (-> & -> & ->); [intros; apply H; now right|].
  destruct (H q (or_introl eq_refl)) as (A & B & C). unfold ucondv. rewrite A, B, C. auto.
Qed.

Lemma plain_list_stays {W} (P : plan W) st p c :
  wf_plan P -> parent P c = Some p -> (forall q, In q (p :: p_anc P p) -> plain P q) ->
  state st p = EXECUTING -> state st c <> FINISHED -> forall s o f, decision P st p <> DGo s o f.
Proof.
  intros [K1 K2 _] Hp Hpl Es Hc s o f. unfold decision. rewrite Es.
  assert (Hk : In c (p_kids P p)) by now apply K1.
  rewrite (K2 _ _ Hk).
  destruct (plain_kids P st (p_anc P p)) as (A & B & C); [intros; apply Hpl; now right|].
  destruct (Hpl p (or_introl eq_refl)) as (D & E & F).
  assert (G : allFinished P st p = false).
  { unfold allFinished. apply not_true_is_false. intro H. rewrite forallb_forall in H. specialize (H c Hk).
    unfold isFinished in H. apply Hc. now destruct (state st c). }
  cbn. unfold condsOf. rewrite A, B, C. unfold endCond, ucondv. rewrite D, E, F, (K2 _ _ Hk), G. cbn.
  discriminate.
Qed.

Theorem C09_children_run_inside_parent_partial {W} (P : plan W) env p c :
  wf_plan P -> parent P c = Some p -> (forall q, In q (p :: p_anc P p) -> plain P q) ->
  forall st, at_rest P env st -> state st c <> INACTIVE -> state st c <> FINISHED -> state st p = EXECUTING.
Proof.
  intros HW Hp Hpl st Hr. induction Hr as [w|st a Ha Hr IH|pol st Hr IH].
  - cbn. congruence.
  - rewrite !act_other_state by exact Ha. exact IH.
  - intros H1 H2. pose proof (at_rest_Inv P env st Hr) as HI. pose proof (at_rest_chg P env st Hr) as Hc.
    destruct (turn_spec P (wf_cond P HW) pol st HI Hc) as (_ & _ & T & _). cbn zeta in *.
    set (st' := turn P pol st) in *. clearbody st'.
    assert (S : state st p = EXECUTING /\ state st c <> FINISHED).
    { assert (D : state st' c = state st c \/ state st' c <> state st c) by (destruct (state st' c), (state st c); auto; right; discriminate).
      destruct D as [D|D]; [rewrite D in *; auto|]. destruct (T c D) as [L M].
      destruct (state st c) eqn:Ec; try (split; [now apply IH; congruence|congruence]).
      - split; [|congruence]. destruct M as [(o & f & M)|(M & _)]; [|discriminate].
        unfold decision in M. rewrite Ec, Hp in M. cbn in M. unfold destFromInactive in M. cbn in M.
        destruct (state st p); cbn in M; try discriminate; try reflexivity; inversion M; congruence.
      - cbn in L. destruct L as [L|[]]. congruence. }
    destruct S as [Sp Sc].
    assert (D : state st' p = state st p \/ state st' p <> state st p) by (destruct (state st' p), (state st p); auto; right; discriminate).
    destruct D as [D|D]; [congruence|]. destruct (T p D) as [_ [(o & f & M)|(M & _)]]; [|congruence].
    exfalso. eapply plain_list_stays; eauto.
Qed.

Lemma mkP_wf N ty par mx has cnd :
  (forall c p, par c = Some p -> In c N /\ ty p = NList) ->
  (forall w v v' n u, (forall m, v m = v' m) -> cnd w v n u = cnd w v' n u) ->
  wf_plan (mkP N ty par mx has cnd).
Proof.
  intros H1 H2.
  assert (Hpar : forall c, hd_error (ancOf par c) = par c) by (intro c; unfold ancOf; now destruct (par c)).
  assert (K : forall p c, In c (kidsOf N par p) <-> par c = Some p).
  { intros p c. unfold kidsOf. rewrite filter_In. split.
    - intros [_ H]. destruct (par c) as [q|]; [|discriminate]. apply Nat.eqb_eq in H. now subst.
    - intro H. rewrite H. split; [apply (H1 _ _ H)|apply Nat.eqb_refl]. }
  constructor; cbn.
  - intros p c. unfold parent. cbn. rewrite Hpar. apply K.
  - intros p c Hc. apply K in Hc. apply (H1 _ _ Hc).
  - exact H2.
Qed.
Lemma demo_wf : wf_plan demo.
Proof.
  apply mkP_wf.
  - intros c p H. destruct c as [|[|[|[|[|c]]]]]; cbn in H; inversion H; subst; cbn; auto 10.
  - intros w v v' n u H. unfold demoCond. now rewrite H.
Qed.
Example C09_example : wf_plan demo /\ parent demo 2 = Some 0 /\ (forall q, In q (0 :: p_anc demo 0) -> plain demo q) /\
  match demo1 with Some st => at_rest demo envSet st /\ state st 2 = EXECUTING | None => False end.
Proof.
  split; [exact demo_wf|]. split; [reflexivity|]. split; [intros q [<-|[]]; vm_compute; auto|].
  pose proof demo1_ok as H. assert (K : match demo1 with Some st => state st 2 = EXECUTING | None => False end) by (vm_compute; reflexivity).
  revert H K. destruct demo1 as [st|]; cbn; [|auto]. intros H K. split; [now apply reachable_at_rest|exact K].
Qed.

(** With a user end condition on the list the English claim fails: the parent's
    iteration is over while its child is executing. *)
Lemma at_rest_turnOf P pol o : (forall st, o = Some st -> at_rest P envSet st) -> forall st, turnOf P pol o = Some st -> at_rest P envSet st.
Proof. destruct o as [s|]; cbn; intros H st E; inversion E; subst. apply (ar_turn P envSet pol s). auto. Qed.
Lemma orphan3_ok st : orphan3 = Some st -> at_rest orphanP envSet st.
Proof.
  unfold orphan3. revert st. do 3 apply at_rest_turnOf. intros st E. apply reachable_at_rest.
  assert (H : okR orphanP envSet (doAct orphanP (AEnv 2 [0; 1]) orphan2)) by (unfold orphan2, orphan1; okR).
  rewrite E in H. exact H.
Qed.
Theorem C09_refuted :
  exists (P : plan nat) env st c p, at_rest P env st /\ parent P c = Some p /\ state st c = EXECUTING /\ state st p = ITERATION_ENDED.
Proof.
  exists orphanP, envSet.
  assert (K : match orphan3 with Some st => state st 1 = EXECUTING /\ state st 0 = ITERATION_ENDED | None => False end) by (vm_compute; auto).
  pose proof orphan3_ok as H. destruct orphan3 as [st|]; [|contradiction]. exists st, 1, 0. split; [now apply H|]. split; [reflexivity|exact K].
Qed.
Print Assumptions C09_children_run_inside_parent_partial.
Print Assumptions C09_refuted.

(** ------------------------------------------------------------------ C10 *)
(** [turn P pol st] is one pass of the quiescence loop: all candidates are
    decided in the state [st], then the chosen nodes move. *)
Theorem C10_list_waits_for_children {W} (P : plan W) env pol st n :
  wf_plan P -> at_rest P env st -> p_type P n = NList ->
  (state st n = FINISHING \/ state st n = FAILING) ->
  (state (turn P pol st) n = ITERATION_ENDED \/ state (turn P pol st) n = FINISHED) ->
  forall c, parent P c = Some n -> state st c = WAITING \/ state st c = FINISHED.
Proof.
  intros HW Hr Ht Hs Hs' c Hc.
  destruct (turn_spec P (wf_cond P HW) pol st (at_rest_Inv _ _ _ Hr) (at_rest_chg _ _ _ Hr)) as (_ & _ & T & _). cbn zeta in *.
  destruct (T n) as [_ [(o & f & D)|(D & _)]]; [destruct Hs, Hs'; congruence| |destruct Hs; congruence].
  assert (A : allWaitingOrFinished P st n = true).
  { unfold decision in D. rewrite Ht in D. destruct Hs as [Hs|Hs]; rewrite Hs in D.
    - cbn in D. unfold destFromFinishing, destFromFinishingCmdList, destInterrupt, condsOf in D. cbn in D. unfold actionCond in D. rewrite Ht in D.
      destruct (allWaitingOrFinished P st n); [reflexivity|].
      repeat match type of D with context[if ?b then _ else _] => destruct b end; cbn in D; try discriminate; inversion D; destruct Hs'; congruence.
    - cbn in D. unfold destFromFailing, condsOf in D. cbn in D. unfold actionCond in D. rewrite Ht in D.
      destruct (allWaitingOrFinished P st n); [reflexivity|]. cbn in D. discriminate. }
  unfold allWaitingOrFinished in A. rewrite forallb_forall in A. apply (wf_kids P HW) in Hc. specialize (A c Hc).
  unfold isWaitFin in A. destruct (state st c); auto; discriminate.
Qed.
Theorem C10_default_end_needs_all_finished {W} (P : plan W) env pol st n :
  wf_plan P -> at_rest P env st -> p_type P n = NList -> p_has P n UEnd = false ->
  state st n = EXECUTING -> state (turn P pol st) n = FINISHING ->
  forall c, parent P c = Some n -> state st c = FINISHED.
Proof.
  intros HW Hr Ht Hu Hs Hs' c Hc.
  destruct (turn_spec P (wf_cond P HW) pol st (at_rest_Inv _ _ _ Hr) (at_rest_chg _ _ _ Hr)) as (_ & _ & T & _). cbn zeta in *.
  destruct (T n) as [_ [(o & f & D)|(D & _)]]; [congruence| |congruence].
  assert (A : allFinished P st n = true).
  { unfold decision in D. rewrite Ht, Hs, Hs' in D. cbn in D. unfold destFromExecuting, destFromExecutingCmdList, destInterrupt, condsOf in D. cbn in D.
    unfold endCond in D. unfold ucondv in D. rewrite Ht, Hu in D.
    destruct (allFinished P st n); [reflexivity|]. cbn in D.
    repeat match type of D with context[if ?b then _ else _] => destruct b end; cbn in D; discriminate. }
  unfold allFinished in A. rewrite forallb_forall in A. apply (wf_kids P HW) in Hc. specialize (A c Hc).
  unfold isFinished in A. destruct (state st c); auto; discriminate.
Qed.
Fixpoint demoT (k : nat) : option (est nat) :=
  match k with
  | O => doAct demo (AEnv 2 [5]) demo2
  | S k' => turnOf demo (everyone demoN) (demoT k')
  end.
Lemma demoT_ok k : forall st, demoT k = Some st -> at_rest demo envSet st.
Proof.
  induction k as [|k IH]; intros st E.
  - apply reachable_at_rest. assert (H : okR demo envSet (demoT 0)) by (unfold demoT; okR; apply demo2_ok). rewrite E in H. exact H.
  - apply (at_rest_turnOf demo (everyone demoN) (demoT k) IH st E).
Qed.
Example C10_example : wf_plan demo /\ p_type demo 0 = NList /\ p_has demo 0 UEnd = false /\
  (exists st, at_rest demo envSet st /\ state st 0 = EXECUTING /\ state (turn demo (everyone demoN) st) 0 = FINISHING) /\
  (exists st, at_rest demo envSet st /\ state st 0 = FINISHING /\ state (turn demo (everyone demoN) st) 0 = ITERATION_ENDED).
Proof.
  split; [exact demo_wf|]. split; [reflexivity|]. split; [reflexivity|]. split.
  - assert (K : match demoT 4 with Some st => state st 0 = EXECUTING /\ state (turn demo (everyone demoN) st) 0 = FINISHING | None => False end) by (vm_compute; auto).
    pose proof (demoT_ok 4) as H. destruct (demoT 4) as [st|]; [|contradiction]. exists st. split; [now apply H|exact K].
  - assert (K : match demoT 5 with Some st => state st 0 = FINISHING /\ state (turn demo (everyone demoN) st) 0 = ITERATION_ENDED | None => False end) by (vm_compute; auto).
    pose proof (demoT_ok 5) as H. destruct (demoT 5) as [st|]; [|contradiction]. exists st. split; [now apply H|exact K].
Qed.
Print Assumptions C10_list_waits_for_children.
Print Assumptions C10_default_end_needs_all_finished.

(** ------------------------------------------------------------------ C11 *)
(** A root is on the finished list exactly from the moment it becomes FINISHED
    until it is deleted. *)
Theorem C11_on_finished_list {W} (P : plan W) env l w n :
  let st := run env P l (e0 w) in
  In n (e_fin st) <-> parent P n = None /\ state st n = FINISHED /\ ~ In (EvDelete n) (e_trace st).
Proof. cbn zeta. apply (t_fin _ _ (run_TInv P env l w)). Qed.

Theorem C11_deleted_once {W} (P : plan W) env l w n :
  let st := run env P l (e0 w) in
  times (is_delete n) (e_trace st) <= 1 /\ (In (EvDelete n) (e_trace st) -> parent P n = None /\ state st n = FINISHED).
Proof. cbn zeta. split; [apply (t_del _ _ (run_TInv P env l w))|apply (t_delfin _ _ (run_TInv P env l w))]. Qed.

(** A finished root never moves again and is never a candidate again. *)
Lemma act_root_stays {W} (P : plan W) env st a n : Inv P st -> parent P n = None -> state st n = FINISHED -> state (act env P st a) n = FINISHED.
Proof.
  intros HI Hp Hs. destruct (isLoop a) eqn:Ha; [|now rewrite act_other_state].
  destruct a; try discriminate Ha; cbn [act].
  - now rewrite (qt_state _ _ (quiet_checkOne P st)).
  - now rewrite (qt_state _ _ (quiet_resolve P st)).
  - destruct (e_chg st) as [|x cs] eqn:Ec; [unfold transitionOne; now rewrite Ec|].
    destruct (transitionOne_moved P st pre post x cs HI Ec) as (nxt & N1 & N2 & N3 & M).
    rewrite (mv_state _ _ _ _ _ _ M). destruct (Nat.eqb_spec n x) as [->|Hne]; [|exact Hs]. exfalso.
    assert (Q : qs st x = QDelete) by (apply (c_del _ _ _ (proj2 HI x)); auto).
    destruct (q_chg _ _ (proj1 HI) x) as [[H|[H|H]] _]; [rewrite Ec; now left| | |]; try congruence. unfold isTransQ in H. destruct H; congruence.
Qed.
Theorem C11_retired_for_good {W} (P : plan W) env l l' w n :
  let st := run env P l (e0 w) in let st' := run env P l' st in
  parent P n = None -> state st n = FINISHED ->
  state st' n = FINISHED /\ ~ In n (e_cand st' ++ e_pend st' ++ e_chg st').
Proof.
  cbn zeta. intros Hp. pose proof (run_Inv P env l w) as HI. revert HI. generalize (run env P l (e0 w)) as st.
  induction l' as [|a l' IH]; cbn; intros st HI Hs; [|apply IH; [now apply act_Inv|now apply act_root_stays]].
  split; [exact Hs|]. assert (Q : qs st n = QDelete) by (apply (c_del _ _ _ (proj2 HI n)); auto).
  rewrite !in_app_iff. intros [H|[H|H]].
  - apply (q_cand _ _ (proj1 HI)) in H. congruence.
  - apply (q_pend _ _ (proj1 HI)) in H as [H _]. unfold isPendingQ in H. intuition congruence.
  - apply (q_chg _ _ (proj1 HI)) in H as [H _]. unfold isTransQ in H. intuition congruence.
Qed.

(** The active plans are distinct roots that have not been deleted; deleting
    finished plans removes exactly the finished ones. *)
Definition PInv {W} (P : plan W) (st : est W) : Prop :=
  NoDup (e_plans st) /\ forall n, In n (e_plans st) -> parent P n = None /\ ~ In (EvDelete n) (e_trace st).

Definition same_plans {W} (st st' : est W) : Prop :=
  e_plans st' = e_plans st /\ forall n, In (EvDelete n) (e_trace st') <-> In (EvDelete n) (e_trace st).
Lemma sp_quiet {W} (st st1 st' : est W) : same_plans st st1 -> quiet st1 st' -> same_plans st st'.
Proof. intros [A B] Q. split; [now rewrite (qt_plans _ _ Q)|]. intro n. now rewrite (qt_trace _ _ Q). Qed.
Lemma sp_notify {W} (st st1 : est W) l : same_plans st st1 -> same_plans st (notifyAll st1 l).
Proof. intro H. eapply sp_quiet; [exact H|apply quiet_notifyAll]. Qed.
Lemma sp_log {W} (st st1 : est W) e : same_plans st st1 -> (forall n, e <> EvDelete n) -> same_plans st (log st1 e).
Proof. intros [A B] H. split; [exact A|]. intro n. cbn. rewrite B. split; [intros [E|E]; [now apply H in E|exact E]|auto]. Qed.
Lemma sp_refl {W} (st : est W) : same_plans st st.
Proof. split; [reflexivity|tauto]. Qed.

Ltac sp := split; [reflexivity|cbn; tauto].
Lemma act_plans {W} (P : plan W) env st a : Inv P st ->
  match a with
  | ADelete => True
  | AAddPlan r _ => same_plans st (act env P st a) \/
      (parent P r = None /\ ~ In r (e_plans st) /\ state st r = INACTIVE /\ e_plans (act env P st a) = e_plans st ++ [r] /\ e_trace (act env P st a) = e_trace st)
  | _ => same_plans st (act env P st a)
  end.
Proof.
  intro HI. destruct a; cbn [act]; auto.
  - eapply sp_quiet; [sp|apply quiet_checkOne].
  - eapply sp_quiet; [sp|apply quiet_resolve].
  - destruct (e_chg st) as [|x cs] eqn:Ec; [unfold transitionOne; rewrite Ec; sp|].
    destruct (transitionOne_moved P st pre post x cs HI Ec) as (nxt & N1 & N2 & N3 & M).
    split; [apply (mv_plans _ _ _ _ _ _ M)|]. intro n. rewrite (mv_trace _ _ _ _ _ _ M). cbn. intuition discriminate.
  - unfold assignOne. destruct (e_asg st); [sp|]. apply sp_notify, sp_log; [|discriminate]. destruct (nstate_eqb _ _); sp.
  - unfold retractOne. destruct (e_ret st); [sp|]. apply sp_notify, sp_log; [|discriminate]. destruct (nstate_eqb _ _); sp.
  - assert (F : forall (g : nat -> event) l s, (forall m n, g m <> EvDelete n) -> same_plans st s -> same_plans st (fold_left (fun st n => log st (g n)) l s)).
    { intros g. induction l as [|y l IH]; cbn; intros s Hg H; [exact H|]. apply IH; [exact Hg|]. apply sp_log; auto. }
    unfold outbound. match goal with |- same_plans st (set_out ?x _ _ _ _ _) => assert (H : same_plans st x) end; [|exact H].
    apply F; [discriminate|]. apply F; [discriminate|]. apply F; [discriminate|sp].
  - destruct (parent P root); [left; sp|]. destruct (memb root (e_plans st)) eqn:Em; cbn; [left; sp|].
    destruct (nstate_eqb (state st root) INACTIVE) eqn:Es; [|left; sp]. right.
    split; [reflexivity|]. split; [intro H; apply memb_In in H; congruence|].
    split; [now destruct (state st root)|].
    rewrite (qt_plans _ _ (quiet_notifyAll _ _)), (qt_trace _ _ (quiet_notifyAll _ _)).
    rewrite (qt_plans _ _ (quiet_notify _ _)), (qt_trace _ _ (quiet_notify _ _)). auto.
  - apply sp_notify; sp.
  - destruct (p_type P n); try sp. destruct (running _); [apply sp_notify|]; sp.
  - destruct (p_type P n); try sp. destruct (running _); [apply sp_notify|]; sp.
  - destruct (p_type P n); try sp. destruct (nstate_eqb _ _); [apply sp_notify|]; sp.
Qed.

Lemma run_PInv {W} (P : plan W) env l w : PInv P (run env P l (e0 w)).
Proof.
  assert (G : forall l st, Inv P st -> TInv P st -> PInv P st -> PInv P (run env P l st)).
  { clear. induction l as [|a l IH]; cbn; intros st HI HT [H1 H2]; [split; auto|]. apply IH; [now apply act_Inv|eapply obs_TInv; eauto; now apply act_obs|].
    assert (S : same_plans st (act env P st a) -> PInv P (act env P st a)).
    { intros [A B]. split; rewrite A; [exact H1|]. intros n Hn. rewrite B. auto. }
    pose proof (act_plans P env st a HI) as HP. destruct a; auto.
    - destruct HP as [HP|(A & B & C & D & E)]; [auto|]. split; rewrite D.
      + apply NoDup_app'; [exact H1|constructor; [intros []|constructor]|]. intros x Hx [<-|[]]. contradiction.
      + intros n Hn. rewrite E. apply in_app_iff in Hn as [Hn|[<-|[]]]; [auto|]. split; [exact A|]. intro F.
        apply (t_delfin _ _ HT) in F. destruct F; congruence.
    - cbn [act]. destruct (deleteFinished_obs st) as (A & _ & _ & _ & _ & _ & _ & _ & B). cbn zeta in *.
      split; rewrite B; [now apply NoDup_filter|]. intros n Hn. apply filter_In in Hn as [Hn Hf].
      rewrite A, in_app_iff, <- in_rev, in_map_iff. split; [now apply H2|]. intros [(x & E & Hx)|F]; [|now apply (H2 n Hn)].
      inversion E; subst. apply memb_In in Hx. rewrite Hx in Hf. discriminate. }
  apply G; [apply (e0_Inv P env)|apply (e0_TInv P env)|]. split; [constructor|intros n []].
Qed.

Theorem C11_delete_removes_exactly_finished {W} (P : plan W) env l w :
  let st := run env P l (e0 w) in let st' := act env P st ADelete in
  e_plans st' = filter (fun r => negb (nstate_eqb (state st r) FINISHED)) (e_plans st) /\ e_fin st' = [] /\
  NoDup (e_plans st) /\ (forall n, state st' n = state st n).
Proof.
  cbn zeta. pose proof (run_PInv P env l w) as [H1 H2]. pose proof (run_TInv P env l w) as HT.
  set (st := run env P l (e0 w)) in *. clearbody st. cbn [act].
  destruct (deleteFinished_obs st) as (_ & C & D & _ & _ & _ & _ & _ & B). cbn zeta in *.
  split; [|split; [exact D|split; [exact H1|]]].
  - rewrite B. apply filter_ext_in. intros r Hr. destruct (H2 r Hr) as [A1 A2]. f_equal.
    destruct (memb r (e_fin st)) eqn:Em.
    + apply memb_In in Em. apply (t_fin _ _ HT) in Em as (_ & -> & _). reflexivity.
    + destruct (nstate_eqb (state st r) FINISHED) eqn:Es; [|reflexivity].
      assert (In r (e_fin st)) by (apply (t_fin _ _ HT); split; [exact A1|split; [now destruct (state st r)|exact A2]]).
      apply memb_In in H. congruence.
  - intro n. unfold state. now rewrite C.
Qed.
Example C11_example : match demo3 with
  | Some st => e_plans st = [0; 5] /\ e_fin st = [5; 0] /\ e_plans (act envSet demo st ADelete) = [] | None => False end.
Proof. vm_compute. auto. Qed.
Print Assumptions C11_on_finished_list.
Print Assumptions C11_deleted_once.
Print Assumptions C11_retired_for_good.
Print Assumptions C11_delete_removes_exactly_finished.

(** ------------------------------------------------------------------ C40 *)
Theorem C40_all_plans_finished {W} (st : est W) :
  allPlansFinished st = true <->
  (forall r, In r (e_plans st) -> state st r = FINISHED) /\ (e_plans st <> [] \/ e_deleted st = true).
Proof.
  unfold allPlansFinished.
  assert (G : forall l b, allFin st l b = true <-> (forall r, In r l -> state st r = FINISHED) /\ (l <> [] \/ b = true)).
  { induction l as [|r l IH]; cbn; intro b.
    - split; [intros ->; split; [intros ? []|auto]|intros [_ [H|H]]; [congruence|exact H]].
    - destruct (nstate_eqb (state st r) FINISHED) eqn:E.
      + rewrite IH. assert (E' : state st r = FINISHED) by now destruct (state st r).
        split; [intros [A _]; split; [intros x [<-|H]; auto|left; discriminate]|intros [A _]; split; [auto|now right]].
      + split; [discriminate|]. intros [A _]. specialize (A r (or_introl eq_refl)). rewrite A in E. discriminate. }
  apply G.
Qed.
Example C40_example : match demo3 with Some st => allPlansFinished st = true | None => False end /\
  match demo2 with Some st => allPlansFinished st = false | None => False end.
Proof. vm_compute. auto. Qed.
(** Before any plan has been added, asking to delete finished plans makes the
    executive report that all plans have finished. *)
Theorem C40_no_plan_reported_finished :
  exists (P : plan nat) env st, reachable P env st /\ allPlansFinished st = true /\ e_trace st = [] /\ e_plans st = [].
Proof.
  exists demo, envSet, (act envSet demo (e0 0) ADelete). split; [apply re_event; [reflexivity|apply re_init]|]. vm_compute. auto.
Qed.
Print Assumptions C40_all_plans_finished.

(** Assumptions *)
Print Assumptions C07_duplicate_mutex_refuted.
Print Assumptions C40_no_plan_reported_finished.
