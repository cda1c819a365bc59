(** C66: the stand-alone simulator sends what its scripts say, when they say it. *)
From Coq Require Import ZArith List Bool String Lia Permutation.
From Verif Require Import SimModel SimSpec SimProofs.
Import ListNotations.
Open Scope Z_scope.

(** Whatever the threads and the clock do: each telemetry entry and each scheduled response is sent once, is about to be
    sent by one thread, or is still on the agenda - and nothing else is. *)
Theorem C66_exactly_once tel cmds now w : reach (started tel cmds now) w ->
  Permutation (map snd (telemetry tel) ++ responses (trace (sh w)))
              (map snd (sent (trace (sh w)) ++ inHand (main w) ++ inHand (ipc w) ++ agenda (sh w))).
Proof.
  intros R. rewrite <- (reach_once _ _ _ _ R). apply Permutation_app_tail, Permutation_map, Permutation_sym, (proj2 (script_agenda tel)).
Qed.

(** Whatever happens, the k-th command of a name gets the answer the script gives for k (first entry with that index, else
    the last entry with index 0). *)
Theorem C66_kth_answer tel cmds now c w : reach (started tel cmds now) w -> mentioned c cmds ->
  rev (answers c (trace (sh w))) = map (fun k => scripted c cmds (Z.of_nat k)) (seq 1 (List.length (answers c (trace (sh w))))).
Proof.
  intros R (i & r & Hi). pose proof (script_mgrs c cmds) as B. destruct (findS c (scriptMgrs cmds)) as [m|] eqn:E; cbn in B.
  - destruct B as (B1 & _ & B2 & _ & B3). destruct (reach_answers _ _ _ c m w E B1 R) as [_ A]. rewrite A.
    apply map_ext_in. intros k Hk. apply in_seq in Hk. unfold prescribed, scripted. rewrite B3, B2; [reflexivity|lia].
  - elim (B i r Hi).
Qed.
(** A command no script mentions is not answered at all. *)
Theorem C66_unscripted_ignored tel cmds now c w : reach (started tel cmds now) w -> ~ mentioned c cmds ->
  answers c (trace (sh w)) = [] /\ forall m, In m (responses (trace (sh w))) -> mName m <> c.
Proof.
  intros R H. pose proof (script_mgrs c cmds) as B.
  assert (E : findS c (scriptMgrs cmds) = None) by (destruct (findS c (scriptMgrs cmds)) as [m|]; [cbn in B; tauto|reflexivity]).
  destruct (reach_unknown _ _ _ _ _ E R) as [_ A]. split; [exact A|]. intros m Hm <-.
  destruct (response_in_scheduled _ _ Hm) as [t Ht]. destruct (reach_promises _ _ _ _ R) as [_ (l & _ & k & K1 & K2)].
  assert (X : exists x, In x k /\ snd x = m).
  { clear - K2 Ht. induction K2 as [|x y k q Hk K2 IH]; [destruct Ht|]. destruct Ht as [->|Ht].
    - exists x. split; [left; reflexivity|]. exact (proj1 Hk).
    - destruct (IH Ht) as (z & Z1 & Z2). exists z. split; [right; exact Z1|exact Z2]. }
  destruct X as (x & X1 & <-). apply (promised_name x (trace (sh w))); [|exact A]. rewrite K1. apply in_or_app. right. exact X1.
Qed.

(** Whatever happens: when the IPC thread is idle, the answers that call for a message and the messages scheduled
    correspond one to one, in order; each is for the sender of that command, with the script's value, and not before the
    delay has passed. *)
Theorem C66_answer_scheduled tel cmds now w : reach (started tel cmds now) w -> ipc w = Idle ->
  Forall2 (fun a s => snd a = snd s /\ fst (fst a) + snd (fst a) <= fst s) (promised (trace (sh w))) (scheduledAt (trace (sh w))).
Proof.
  intros R E. destruct (reach_promises _ _ _ _ R) as [_ (l & P & k & K1 & K2)]. rewrite E in P. cbn in P. subst l.
  rewrite K1. exact K2.
Qed.

(** The threads taking turns: what is sent was scheduled for exactly that time, once. *)
Theorem C66_exactly_once_timed tel cmds now w : sreach (started tel cmds now) w -> quiet w ->
  Permutation (entered (telemetry tel) (trace (sh w))) (sent (trace (sh w)) ++ agenda (sh w)).
Proof.
  intros R (Q1 & Q2 & _). destruct (sreach_one _ _ _ _ R) as [_ O]. unfold busy in O. rewrite Q1, Q2 in O.
  destruct (script_agenda tel) as [S P]. pose proof (i_once _ _ _ (one_inv _ _ _ _ _ S O)) as H. cbn in H.
  rewrite <- H. apply entered_perm, Permutation_sym, P.
Qed.
(** Nothing is sent before its time. *)
Theorem C66_never_early tel cmds now w n t m : sreach (started tel cmds now) w -> In (Sent n t m) (trace (sh w)) -> t <= n.
Proof.
  intros R. destruct (sreach_one _ _ _ _ R) as [_ O]. exact (i_early _ _ _ (one_inv _ _ _ _ _ (proj1 (script_agenda tel)) O) n t m).
Qed.
(** Messages go out in the order of their times, over the whole history. *)
Theorem C66_in_order tel cmds now w : (forall c i r, In (c, i, r) cmds -> 0 <= rDelay r) -> sreach (started tel cmds now) w ->
  nonDecreasing (rev (map fst (sent (trace (sh w))))).
Proof.
  intros H R. destruct (sreach_one _ _ _ _ R) as [_ O].
  exact (o_nd _ _ (one_ordered _ _ _ _ _ (proj1 (script_agenda tel)) (script_patient _ H) O)).
Qed.
(** LookupNow answers with the value last sent, and with nothing when none was. *)
Theorem C66_lookup_last_sent tel cmds now w pre n v post : sreach (started tel cmds now) w ->
  trace (sh w) = pre ++ Lookup n v :: post -> v = lastSent n post.
Proof.
  intros R. destruct (sreach_one _ _ _ _ R) as [_ O]. exact (proj2 (one_values _ _ _ _ _ O) pre n v post).
Qed.

(** No wake-up is lost, unless a message falls on a whole second or the timer is set at the very microsecond it is for:
    while the simulator waits, SIGALRM is pending or the timer will fire no later than the first message is due. *)
Theorem C66_wakeup_pending tel cmds now w : sreach (started tel cmds now) w -> quiet w ->
  neverDisarmed (trace (sh w)) -> (forall x, In x (entered (telemetry tel) (trace (sh w))) -> fractional (fst x)) ->
  forall x, In x (agenda (sh w)) -> alarm (sh w) = true \/ exists e, timer (sh w) = Some e /\ e <= fst x.
Proof.
  intros R (Q1 & Q2 & _) D F x Hx. destruct (sreach_one _ _ _ _ R) as [_ O]. unfold busy in O. rewrite Q1, Q2 in O.
  destruct (script_agenda tel) as [S P].
  assert (G : goodTimes (scriptAgenda tel) (trace (sh w))).
  { split; [exact D|]. intros y Hy. apply F. exact (Permutation_in _ (entered_perm _ _ _ P) Hy). }
  destruct (one_cover _ _ _ _ _ S O G) as [C|[C|(e & C1 & C2)]].
  - rewrite C in Hx. destruct Hx.
  - left. exact C.
  - right. exists e. split; [exact C1|]. pose proof (i_sorted _ _ _ (one_inv _ _ _ _ _ S O)) as Hs.
    destruct (agenda (sh w)) as [|[t m] r]; [destruct Hx|]. cbn in C2. pose proof (sorted_head _ _ _ _ Hs Hx). lia.
Qed.
(** Hence a due message is sent: however fast the clock runs, the main thread wakes, sends everything that was due, and
    waits again. *)
Theorem C66_due_is_sent tel cmds now w f : sreach (started tel cmds now) w -> quiet w ->
  neverDisarmed (trace (sh w)) -> (forall x, In x (entered (telemetry tel) (trace (sh w))) -> fractional (fst x)) ->
  (exists x, In x (agenda (sh w)) /\ fst x <= clock (sh w)) -> (forall i, 0 <= f i) ->
  exists n, quiet (mainAlone f n w) /\ forall x, In x (agenda (sh w)) -> fst x <= clock (sh w) ->
    In x (sent (trace (sh (mainAlone f n w)))) /\ ~ In x (agenda (sh (mainAlone f n w))).
Proof.
  intros R Q D F (x0 & X1 & X2) Hf.
  destruct (sreach_one _ _ _ _ R) as [_ O]. destruct (script_agenda tel) as [S P].
  assert (A : alarm (sh w) = true).
  { destruct (C66_wakeup_pending _ _ _ _ R Q D F x0 X1) as [A|(e & A1 & A2)]; [exact A|].
    pose proof (i_timer _ _ _ (one_inv _ _ _ _ _ S O) e A1). lia. }
  destruct Q as (Q1 & Q2 & Q3). unfold busy in O. rewrite Q1, Q2 in O.
  pose proof (one_inv _ _ _ _ _ S O) as I0.
  pose proof (inv_tick _ _ _ (f 0%nat) (Hf 0%nat) I0) as I1.
  assert (A1 : alarm (tick (f 0%nat) (sh w)) = true).
  { unfold tick. destruct (timer (sh w)); [destruct (_ <=? _)|]; cbn; auto. }
  destruct (tick_same (f 0%nat) (sh w)) as [T1 T2].
  assert (E1 : mainAlone f 1 w = World Wake Idle (setTimerAlarm (timer (tick (f 0%nat) (sh w))) false (tick (f 0%nat) (sh w)))).
  { cbn [mainAlone]. unfold stepw at 2. rewrite Q3. destruct (Z.leb_spec 0 (f 0%nat)); [|specialize (Hf 0%nat); lia].
    unfold stepw. cbn [sh main ipc]. rewrite T1, Q3, Q1, A1, Q2. reflexivity. }
  pose proof (inv_wake _ _ I1) as I2.
  destruct (wake_ends (scriptAgenda tel) (clock (sh w)) f Hf _ (mainAlone f 1 w) w 1%nat (Nat.lt_succ_diag_r _) eq_refl) as (n & N1 & N2 & N3 & N4).
  - rewrite E1. reflexivity.
  - rewrite E1. cbn. rewrite T1. exact Q3.
  - rewrite E1. exact I2.
  - rewrite E1. cbn. destruct (tick_eq (f 0%nat) (sh w)) as [t [b ->]]. cbn. specialize (Hf 0%nat). lia.
  - exists n. split; [exact N1|]. intros x Hx Hd.
    assert (Nx : ~ In x (agenda (sh (mainAlone f n w)))) by (intros Hy; pose proof (N3 x Hy); lia).
    split; [|exact Nx].
    assert (E2 : In x (entered (scriptAgenda tel) (trace (sh w)))).
    { apply (Permutation_in _ (Permutation_sym (i_once _ _ _ I0))). cbn. apply in_or_app. right. exact Hx. }
    rewrite E1 in N4. cbn [sh setTimerAlarm trace] in N4. rewrite T2 in N4. rewrite <- N4 in E2.
    apply (Permutation_in _ (i_once _ _ _ N2)) in E2. cbn in E2. apply in_app_or in E2. tauto.
Qed.

(** ** A concrete run, and what does not hold *)
Definition T0 : Z := 1700000000 * million.
Definition tel1 : list (Z * (string * nat)) := [(3000001, ("temp"%string, 20%nat)); (1500000, ("temp"%string, 10%nat)); (2500000, ("mode"%string, 1%nat))].
Definition cmds1 : list (string * Z * resp) := [("move"%string, 0, Resp 7 1200000 1); ("move"%string, 2, Resp 9 100000 1)].
Definition rep {A} (n : nat) (a : A) : list A := repeat a n.
Definition run1 : list act := rep 8 RunMain ++ [Tick 10; NewCommand "move" 41] ++ rep 6 RunIpc ++ [Tick 5] ++ rep 12 RunIpc ++
  [Tick 1300001] ++ rep 30 RunMain ++ [NewCommand "move" 42; Tick 1] ++ rep 5 RunIpc ++ [Tick 1] ++ rep 25 RunIpc ++ [NewLookup "temp"; Tick 300000] ++ rep 30 RunMain ++
  [NewLookup "temp"; Tick 5000000] ++ rep 60 RunMain ++ [NewLookup "temp"].
Fixpoint inTurnB (l : list act) (w : world) : bool :=
  match l with
  | [] => true
  | a :: r => (match a, main w, ipc w with Tick _, _, _ | RunMain, _, Idle | RunIpc, Idle, _ | NewCommand _ _, Idle, _ | NewLookup _, Idle, _ => true | _, _, _ => false end)
              && inTurnB r (stepw a w)
  end.
Lemma exec_sreach l w0 w : sreach w0 w -> inTurnB l w = true -> sreach w0 (exec l w).
Proof.
  revert w. induction l as [|a l IH]; intros w R H; [exact R|]. cbn in H. apply andb_prop in H. destruct H as [H1 H2].
  apply (IH (stepw a w)); [|exact H2]. constructor; [exact R|]. destruct a; cbn in *; auto; destruct (main w), (ipc w); congruence.
Qed.
Lemma exec_reach l w0 w : reach w0 w -> reach w0 (exec l w).
Proof. revert w. induction l as [|a l IH]; intros w R; [exact R|]. apply (IH (stepw a w)). constructor. exact R. Qed.
Example run1_in_turn : inTurnB run1 (started tel1 cmds1 T0) = true.
Proof. vm_compute. reflexivity. Qed.
Definition w1 : world := exec run1 (started tel1 cmds1 T0).
Example run1_sends : map (fun x => (fst x - T0, mVal (snd x), mId (snd x))) (rev (sent (trace (sh w1)))) =
  [(1200010, 7%nat, 41%nat); (1400017, 9%nat, 42%nat); (1500000, 10%nat, 0%nat); (2500000, 1%nat, 0%nat); (3000001, 20%nat, 0%nat)].
Proof. vm_compute. reflexivity. Qed.
(** The hypotheses of C66_wakeup_pending and C66_due_is_sent are met in the middle of that run, with a message due and two to come. *)
Definition w2 : world := exec (firstn 95 run1) (started tel1 cmds1 T0).
Definition fracB (t : Z) : bool := (million <=? t) && negb (t mod million =? 0).
Lemma fracB_ok t : fracB t = true -> fractional t.
Proof. unfold fracB. intros H. apply andb_prop in H. destruct H as [H1 H2]. split; [apply Z.leb_le; exact H1|]. apply negb_true_iff, Z.eqb_neq in H2. exact H2. Qed.
Example due_hypotheses : sreach (started tel1 cmds1 T0) w2 /\ quiet w2 /\ neverDisarmed (trace (sh w2)) /\
  (forall x, In x (entered (telemetry tel1) (trace (sh w2))) -> fractional (fst x)) /\
  (exists x, In x (agenda (sh w2)) /\ fst x <= clock (sh w2)) /\ List.length (agenda (sh w2)) = 4%nat.
Proof.
  split; [apply exec_sreach; [constructor|vm_compute; reflexivity]|].
  split; [vm_compute; auto|]. split; [intros t H; vm_compute in H; intuition discriminate|].
  split.
  { assert (B : forallb (fun x => fracB (fst x)) (entered (telemetry tel1) (trace (sh w2))) = true) by (vm_compute; reflexivity).
    intros x Hx. apply fracB_ok. exact (proj1 (forallb_forall _ _) B x Hx). }
  split; [|vm_compute; reflexivity].
  exists (hd (0, Msg Telemetry "" 0 0) (agenda (sh w2))). split; [vm_compute; left; reflexivity|]. apply Z.leb_le. vm_compute. reflexivity.
Qed.
Example answers_hypotheses : mentioned "move" cmds1 /\ List.length (answers "move" (trace (sh w1))) = 2%nat /\ ipc w1 = Idle /\
  List.length (promised (trace (sh w1))) = 2%nat /\ ~ mentioned "stop" cmds1.
Proof.
  split; [exists 0, (Resp 7 1200000 1); left; reflexivity|]. do 3 (split; [vm_compute; reflexivity|]).
  intros (i & r & H). cbn in H. intuition discriminate.
Qed.

(** Nothing ever happens again on its own: the timer is off and no signal is pending. *)
Definition asleep (w : world) : Prop := quiet w /\ timer (sh w) = None /\ alarm (sh w) = false.
Lemma asleep_forever w f n : asleep w -> asleep (mainAlone f n w) /\ agenda (sh (mainAlone f n w)) = agenda (sh w) /\
  sent (trace (sh (mainAlone f n w))) = sent (trace (sh w)).
Proof.
  intros A.
  assert (R : forall v, asleep v -> stepw RunMain v = v).
  { intros v ((Q1 & Q2 & Q3) & T & L). unfold stepw. rewrite Q3, Q1, L. reflexivity. }
  induction n as [|n (IH & IH1 & IH2)]; [auto|]. cbn [mainAlone]. set (v := mainAlone f n w) in *. clearbody v.
  assert (X : asleep (stepw (Tick (f n)) v) /\ agenda (sh (stepw (Tick (f n)) v)) = agenda (sh v) /\ sent (trace (sh (stepw (Tick (f n)) v))) = sent (trace (sh v))).
  { destruct IH as ((Q1 & Q2 & Q3) & T & L). unfold stepw. rewrite Q3. destruct (0 <=? f n).
    - unfold tick. rewrite T. cbn. unfold asleep, quiet. cbn. auto 10.
    - unfold asleep, quiet. auto 10. }
  destruct X as (X1 & X2 & X3). rewrite (R _ X1), X2, X3. auto.
Qed.
(** Telemetry for a whole second of the clock is not sent when something was sent before it: handleWakeUp takes a zero
    microseconds field for "nothing to send". *)
Theorem C66_whole_second_lost_refuted : exists tel w, sreach (started tel [] T0) w /\ neverDisarmed (trace (sh w)) /\
  forall f n, (forall i, 0 <= f i) -> exists x, In x (agenda (sh (mainAlone f n w))) /\ fst x = T0 + 2 * million /\ asleep (mainAlone f n w).
Proof.
  set (tel := [(500000, ("temp"%string, 1%nat)); (2000000, ("temp"%string, 2%nat))]).
  set (l := rep 8 RunMain ++ [Tick 600000] ++ rep 30 RunMain).
  exists tel, (exec l (started tel [] T0)). split; [apply exec_sreach; [constructor|vm_compute; reflexivity]|].
  split; [intros t H; vm_compute in H; intuition discriminate|].
  intros f n _. destruct (asleep_forever (exec l (started tel [] T0)) f n) as (A & B & _); [vm_compute; auto|].
  exists (T0 + 2 * million, Msg Telemetry "temp" 2 0). rewrite B. split; [vm_compute; left; reflexivity|]. split; [reflexivity|exact A].
Qed.
(** A command answered within one microsecond of its arrival switches the timer off: neither its response nor the
    telemetry still to come is sent. *)
Theorem C66_same_microsecond_lost_refuted : exists tel cmds w, sreach (started tel cmds T0) w /\
  (forall x, In x (entered (telemetry tel) (trace (sh w))) -> fractional (fst x)) /\
  forall f n, (forall i, 0 <= f i) -> sent (trace (sh (mainAlone f n w))) = [] /\ List.length (agenda (sh (mainAlone f n w))) = 2%nat /\ asleep (mainAlone f n w).
Proof.
  set (tel := [(500000, ("temp"%string, 1%nat))]). set (cmds := [("move"%string, 0, Resp 7 300000 1)]).
  set (l := rep 8 RunMain ++ [Tick 1; NewCommand "move" 41] ++ rep 12 RunIpc).
  exists tel, cmds, (exec l (started tel cmds T0)). split; [apply exec_sreach; [constructor|vm_compute; reflexivity]|].
  split.
  { assert (B : forallb (fun x => fracB (fst x)) (entered (telemetry tel) (trace (sh (exec l (started tel cmds T0))))) = true) by (vm_compute; reflexivity).
    intros x Hx. apply fracB_ok. exact (proj1 (forallb_forall _ _) B x Hx). }
  intros f n _. destruct (asleep_forever (exec l (started tel cmds T0)) f n) as (A & B & C); [vm_compute; auto|].
  rewrite B, C. split; [vm_compute; reflexivity|]. split; [vm_compute; reflexivity|exact A].
Qed.
(** Telemetry for the same time goes out in the reverse of script order, so LookupNow keeps the first value. *)
Theorem C66_equal_times_reversed_refuted : exists tel l, let w := exec l (started tel [] T0) in inTurnB l (started tel [] T0) = true /\
  map (fun e => snd (snd e)) tel = [1%nat; 2%nat] /\ map (fun x => mVal (snd x)) (rev (sent (trace (sh w)))) = [2%nat; 1%nat] /\
  lastSent "temp" (trace (sh w)) = Some 1%nat.
Proof.
  exists [(500000, ("temp"%string, 1%nat)); (500000, ("temp"%string, 2%nat))], (rep 8 RunMain ++ [Tick 600000] ++ rep 30 RunMain).
  vm_compute. auto.
Qed.
(** With both threads sending at once, a message goes out long before its time... *)
Theorem C66_early_in_race_refuted : exists tel cmds w n t m, reach (started tel cmds T0) w /\ In (Sent n t m) (trace (sh w)) /\ t = n + 4999999.
Proof.
  set (tel := [(1, ("temp"%string, 1%nat)); (9999999, ("temp"%string, 2%nat))]). set (cmds := [("move"%string, 0, Resp 7 5000000 1)]).
  set (l := rep 8 RunMain ++ [Tick 10; NewCommand "move" 41] ++ rep 5 RunIpc ++ [Tick 1] ++ rep 4 RunIpc ++ rep 4 RunMain ++ [RunIpc; RunMain] ++ rep 2 RunMain).
  exists tel, cmds, (exec l (started tel cmds T0)), (T0 + 11), (T0 + 5000010), (Msg CommandReturn "move" 7 41).
  split; [apply exec_reach; constructor|]. split; [vm_compute; auto|reflexivity].
Qed.
(** ... or the process dies on an empty agenda. *)
Theorem C66_crash_in_race_refuted : exists tel cmds w, reach (started tel cmds T0) w /\ crashed (sh w) = true /\ forall c i r, In (c, i, r) cmds -> i = 0.
Proof.
  set (tel := [(1, ("temp"%string, 1%nat))]). set (cmds := [("move"%string, 0, Resp 7 0 1)]).
  set (l := rep 8 RunMain ++ [Tick 10; NewCommand "move" 41] ++ rep 5 RunIpc ++ [Tick 1] ++ rep 4 RunMain ++ rep 3 RunMain ++ rep 2 RunMain ++ rep 4 RunIpc ++ [RunMain; RunIpc]).
  exists tel, cmds, (exec l (started tel cmds T0)). split; [apply exec_reach; constructor|]. split; [vm_compute; reflexivity|].
  intros c i r [H|[]]. congruence.
Qed.
(** A command that arrives while the simulator starts is answered half a century late. *)
Theorem C66_start_race_refuted : exists tel cmds w x, reach (started tel cmds T0) w /\ In x (agenda (sh w)) /\
  mKind (snd x) = CommandReturn /\ fst x = 2 * T0 + 5 /\ clock (sh w) < T0 + million.
Proof.
  set (cmds := [("move"%string, 0, Resp 7 5 1)]).
  set (l := [NewCommand "move" 41] ++ rep 4 RunIpc ++ rep 8 RunMain).
  exists [], cmds, (exec l (started [] cmds T0)), (2 * T0 + 5, Msg CommandReturn "move" 7 41).
  split; [apply exec_reach; constructor|]. split; [vm_compute; auto|]. split; [reflexivity|]. split; [reflexivity|]. apply Z.ltb_lt. vm_compute. reflexivity.
Qed.
(** A command beyond the indexed responses, with no default, kills the simulator. *)
Theorem C66_no_default_refuted : exists cmds w, sreach (started [] cmds T0) w /\ mentioned "move" cmds /\ crashed (sh w) = true.
Proof.
  set (cmds := [("move"%string, 1, Resp 7 5 1)]).
  set (l := rep 8 RunMain ++ [NewCommand "move" 41] ++ rep 5 RunIpc ++ [Tick 1] ++ rep 9 RunIpc ++ [NewCommand "move" 42] ++ rep 3 RunIpc).
  exists cmds, (exec l (started [] cmds T0)). split; [apply exec_sreach; [constructor|vm_compute; reflexivity]|].
  split; [exists 1, (Resp 7 5 1); left; reflexivity|vm_compute; reflexivity].
Qed.
(** "Number of responses" is only tested for zero: three responses asked for, one is scheduled. *)
Theorem C66_number_of_responses_refuted : exists cmds w, sreach (started [] cmds T0) w /\ cmds = [("move"%string, 0, Resp 7 5 3)] /\
  List.length (answers "move" (trace (sh w))) = 1%nat /\ List.length (responses (trace (sh w))) = 1%nat /\ asleep w /\ agenda (sh w) = [].
Proof.
  set (cmds := [("move"%string, 0, Resp 7 5 3)]).
  set (l := rep 8 RunMain ++ [NewCommand "move" 41] ++ rep 5 RunIpc ++ [Tick 1] ++ rep 9 RunIpc ++ [Tick 20] ++ rep 20 RunMain).
  exists cmds, (exec l (started [] cmds T0)). split; [apply exec_sreach; [constructor|vm_compute; reflexivity]|]. vm_compute. auto 10.
Qed.

(** Assumptions *)
Print Assumptions C66_exactly_once.
Print Assumptions C66_kth_answer.
Print Assumptions C66_unscripted_ignored.
Print Assumptions C66_answer_scheduled.
Print Assumptions C66_exactly_once_timed.
Print Assumptions C66_never_early.
Print Assumptions C66_in_order.
Print Assumptions C66_lookup_last_sent.
Print Assumptions C66_wakeup_pending.
Print Assumptions C66_due_is_sent.
Print Assumptions C66_whole_second_lost_refuted.
Print Assumptions C66_same_microsecond_lost_refuted.
Print Assumptions C66_equal_times_reversed_refuted.
Print Assumptions C66_early_in_race_refuted.
Print Assumptions C66_crash_in_race_refuted.
Print Assumptions C66_start_race_refuted.
Print Assumptions C66_no_default_refuted.
Print Assumptions C66_number_of_responses_refuted.
