(** C62: the UDP event loop delivers each port's datagrams to its listener, in order, once each, and goes on. *)
From Coq Require Import ZArith List Bool Arith Lia.
From Verif Require Import UdpLoopModel UdpLoopSpec UdpLoopProofs.
Import ListNotations.

(** Whatever datagrams arrive and however threads interleave, a loop used properly never crashes or dies, and
    handling a ready descriptor never blocks. *)
Theorem C62_never_fails h :
  wellUsed [] h ->
  lrun loopInit h <> Crash /\ lrun loopInit h <> Killed
  /\ forall s o, lrun loopInit h = Next s o -> alive s = true /\ (todo s <> [] -> exists s' o', handleStep s = Next s' o').
Proof.
  intros W. pose proof (run_inv h loopInit [] inv_init W) as R. destruct (lrun loopInit h) as [s o| | |]; try contradiction.
  - split; [discriminate|]. split; [discriminate|]. intros s' o' E. injection E as <- <-. split; [apply (i_alive s _ R)|].
    intros T. destruct (todo s) as [|fd rest] eqn:TD; [congruence|]. destruct (handle_ok s _ fd rest R TD) as (p & l & k & d & q & _ & _ & _ & _ & E). eauto.
  - split; [discriminate|]. split; [discriminate|]. intros s o E. discriminate.
Qed.
(** While a port is open, its function is called with its socket's datagrams, in order, each once, cut to the
    listener's size; those not yet passed on are still in the socket. *)
Theorem C62_delivery h1 p max fn fd h2 s1 o1 s2 o2 :
  wellUsed [] (h1 ++ EOpen p max fn fd :: h2) -> ~ In (EClose p) h2 ->
  lrun loopInit (h1 ++ [EOpen p max fn fd]) = Next s1 o1 -> lrun s1 h2 = Next s2 o2 ->
  exists delivered waiting k, arrivals fd h2 = delivered ++ waiting /\ callsFor p o2 = calls fn max delivered
    /\ aget (socks s2) fd = Some k /\ s_queue k = waiting.
Proof.
  intros W NC R1 R2. change (EOpen p max fn fd :: h2) with ([EOpen p max fn fd] ++ h2) in W. rewrite app_assoc in W.
  apply wellUsed_app in W as [W1 W2]. pose proof (run_inv _ loopInit [] inv_init W1) as I1. rewrite R1 in I1.
  rewrite lrun_app in R1. destruct (lrun loopInit h1) as [s0 o0| | |] eqn:R0; try discriminate. apply wellUsed_app in W1 as [W1 W1']. cbn in W1'.
  pose proof (run_inv _ loopInit [] inv_init W1) as I0. rewrite R0 in I0. cbn [lrun lstep] in R1.
  destruct (todo s0) as [|x r] eqn:T; [|unfold openListener in R1; rewrite (i_alive _ _ I0), T in R1; discriminate].
  destruct (aget (socks s0) fd) eqn:F; [unfold openListener in R1; rewrite (i_alive _ _ I0), T, F in R1; discriminate|].
  rewrite (open_eq s0 (openPorts [] h1)) in R1 by tauto. injection R1 as R1 _.
  assert (E : aget (lm s1) p = Some (mkListener fd p max fn)). { rewrite <- R1. cbn [lm]. rewrite aget_set. destruct (Nat.eq_dec p p); [reflexivity|congruence]. }
  assert (Q : queueOf s1 fd = []). { rewrite <- R1. unfold queueOf. cbn [socks]. rewrite aget_set. destruct (Nat.eq_dec fd fd); [reflexivity|congruence]. }
  pose proof (session_run h2 p _ NC s1 _ I1 W2 E) as S. rewrite R2 in S. cbn [l_fd l_fn l_max] in S. destruct S as (E2 & dl & A & B).
  pose proof (run_inv _ s1 _ I1 W2) as I2. rewrite R2 in I2. destruct (i_lis s2 _ I2 _ _ E2) as (_ & _ & _ & k & K & _). cbn in K.
  exists dl, (s_queue k), k. rewrite Q in A. cbn in A. unfold queueOf in A. rewrite K in A. auto.
Qed.
(** While a port is closed its function is not called. *)
Theorem C62_closed_silent h1 h2 p s1 o1 s2 o2 :
  wellUsed [] (h1 ++ h2) -> ~ In p (openPorts [] h1) -> (forall mx fn fd, ~ In (EOpen p mx fn fd) h2) ->
  lrun loopInit h1 = Next s1 o1 -> lrun s1 h2 = Next s2 o2 -> callsFor p o2 = [].
Proof.
  intros W NP NO R1 R2. apply wellUsed_app in W as [W1 W2]. pose proof (run_inv _ loopInit [] inv_init W1) as I1. rewrite R1 in I1.
  pose proof (closed_run h2 p NO s1 _ I1 W2 NP) as C. rewrite R2 in C. exact C.
Qed.
(** No socket is left open without a listener, and every open port is polled once. *)
Theorem C62_no_leak h s o :
  wellUsed [] h -> lrun loopInit h = Next s o ->
  NoDup (polls s) /\ (forall fd k, aget (socks s) fd = Some k ->
    exists l, aget (lm s) (s_port k) = Some l /\ l_fd l = fd /\ In fd (polls s) /\ In (s_port k) (openPorts [] h)).
Proof.
  intros W R. pose proof (run_inv _ loopInit [] inv_init W) as I. rewrite R in I. split; [apply (i_polls s _ I)|].
  intros fd k K. pose proof (i_sock s _ I fd k K) as P. destruct (i_polled s _ I fd P) as (p & l & A & B). destruct (i_lis s _ I _ _ A) as (_ & _ & _ & k' & K' & S).
  rewrite B, K in K'. injection K' as <-. subst p. exists l. do 3 (split; [auto|]). apply (i_open s _ I). congruence.
Qed.
(** The event thread by itself comes to the point where it takes requests, and from there passes on the first
    datagram of every socket that has one. *)
Theorem C62_requests_served h s o :
  wellUsed [] h -> lrun loopInit h = Next s o -> exists n s' o', lrun s (repeat EHandle n) = Next s' o' /\ todo s' = [].
Proof.
  intros W R. pose proof (run_inv _ loopInit [] inv_init W) as I. rewrite R in I. destruct (drain _ s _ I eq_refl) as (s' & o' & D & T & _). eauto.
Qed.
Theorem C62_progress h s o fd k d q :
  wellUsed [] h -> lrun loopInit h = Next s o -> aget (socks s) fd = Some k -> s_queue k = d :: q -> d <> [] ->
  exists steps s' o' l, loopOnly steps /\ lrun s steps = Next s' o' /\ aget (lm s) (s_port k) = Some l /\ l_fd l = fd
    /\ In (l_fn l, s_port k, firstn (l_max l) d) o'.
Proof.
  intros W R K Q ND. pose proof (run_inv _ loopInit [] inv_init W) as I. rewrite R in I. set (op := openPorts [] h) in *.
  pose proof (i_sock s _ I fd k K) as P. destruct (i_polled s _ I fd P) as (p & l & A & B). destruct (i_lis s _ I _ _ A) as (_ & _ & _ & k' & K' & S).
  rewrite B, K in K'. injection K' as <-. subst p. rename A into LP.
  destruct (drain _ s op I eq_refl) as (s1 & o1 & R1 & T1 & I1 & L1 & P1 & SAME & DEL).
  assert (QS : queueOf s fd = d :: q) by (unfold queueOf; rewrite K; exact Q).
  destruct (in_dec Nat.eq_dec fd (todo s)) as [X|X].
  - exists (repeat EHandle (length (todo s))), s1, o1, l. split; [|split; [exact R1|split; [exact LP|split; [exact B|]]]].
    + apply Forall_forall. intros e E. apply repeat_spec in E. auto.
    + apply (DEL _ _ _ q LP); [rewrite B; exact X|rewrite B; exact QS|exact ND].
  - pose proof (SAME _ _ LP ltac:(rewrite B; exact X)) as Q1. rewrite B, QS in Q1.
    set (s2 := {| lm := lm s1; desc := desc s1; polls := polls s1; todo := filter (ready s1) (polls s1); alive := true; socks := socks s1 |}).
    assert (PS : lstep s1 EPoll = Next s2 []). { cbn [lstep]. unfold pollStep. rewrite (i_alive s1 op I1), T1. reflexivity. }
    pose proof (step_inv s1 op EPoll I1 Logic.I) as I2. rewrite PS in I2. cbn [nextOpen] in I2.
    destruct (drain _ s2 op I2 eq_refl) as (s3 & o3 & R3 & _ & _ & _ & _ & _ & DEL3).
    exists (repeat EHandle (length (todo s)) ++ EPoll :: repeat EHandle (length (todo s2))), s3, (o1 ++ [] ++ o3), l.
    split; [|split; [|split; [exact LP|split; [exact B|]]]].
    + apply Forall_app. split; [|constructor; [auto|]]; apply Forall_forall; intros e E; apply repeat_spec in E; auto.
    + rewrite lrun_app, R1. cbn [lrun]. rewrite PS, R3. reflexivity.
    + apply in_or_app. right. cbn [app]. apply (DEL3 _ _ _ q).
      * change (lm s2) with (lm s1). rewrite L1. exact LP.
      * rewrite B. cbn [s2 todo]. apply filter_In. rewrite P1. split; [exact P|]. unfold ready, queueOf in *. destruct (aget (socks s1) fd) as [k1|]; [|reflexivity].
        rewrite Q1. reflexivity.
      * rewrite B. exact Q1.
      * exact ND.
Qed.

(** ** Where the code falls short: opening a port that is open *)
(** executeReceiveCommandCommand opens the message's port every time and nothing closes it when a message has
    arrived, so the second ReceiveCommand of a message does this.  The new socket (4) gets no listener and stays
    open: a datagram the kernel puts there is never delivered. *)
Definition twice : list ev := [EOpen 7 8 1 3; EOpen 7 8 2 4].
Theorem C62_second_socket_leaks_refuted d :
  exists s, lrun loopInit twice = Next s [] /\ polls s = [3; 3]
  /\ exists s', lrun s [EArrive 4 d; EPoll] = Next s' [] /\ todo s' = []
  /\ forall n, match lrun s' (repeat EPoll n) with Next s2 o2 => o2 = [] /\ aget (socks s2) 4 = Some (mkSock 7 [d]) | _ => False end.
Proof.
  eexists. split; [vm_compute; reflexivity|]. split; [reflexivity|]. eexists. split; [vm_compute; reflexivity|]. split; [reflexivity|].
  intros n. match goal with |- context [lrun ?x (repeat EPoll n)] => set (s1 := x) end.
  assert (F : lstep s1 EPoll = Next s1 []) by reflexivity.
  assert (L : lrun s1 (repeat EPoll n) = Next s1 []). { induction n as [|n IH]; [reflexivity|]. cbn [repeat lrun]. rewrite F, IH. reflexivity. }
  rewrite L. split; reflexivity.
Qed.
(** A datagram in the first socket is delivered, but then the event thread, told twice that the socket is ready,
    blocks in recvfrom; requests to open or close any port wait for ever with it. *)
Theorem C62_event_thread_blocks_refuted d :
  d <> [] -> exists s, lrun loopInit (twice ++ [EArrive 3 d; EPoll; EHandle]) = Next s [(1, 7, firstn 8 d)]
  /\ lstep s EHandle = Stuck /\ (forall p mx fn fd, lstep s (EOpen p mx fn fd) = Stuck) /\ (forall p, lstep s (EClose p) = Stuck).
Proof.
  intros ND. destruct d as [|c d]; [congruence|]. eexists. split; [vm_compute; reflexivity|]. split; [reflexivity|]. split; intros; reflexivity.
Qed.
(** Closing such a port leaves a dead entry behind: the event thread ends at the next poll, with all other ports
    silent, and the next request kills the process. *)
Theorem C62_close_ends_loop_refuted :
  exists s, lrun loopInit (EOpen 9 8 5 6 :: twice ++ [EClose 7; EPoll; EHandle]) = Next s []
  /\ alive s = false /\ aget (lm s) 9 <> None
  /\ (forall d, exists s', lstep s (EArrive 6 d) = Next s' [] /\ lstep s' EPoll = Stuck /\ lstep s' EHandle = Stuck)
  /\ forall p mx fn fd, lstep s (EOpen p mx fn fd) = Killed.
Proof.
  eexists. split; [vm_compute; reflexivity|]. split; [reflexivity|]. split; [discriminate|]. split; [intros d; eexists; split; [vm_compute; reflexivity|]; split; reflexivity|]. intros. reflexivity.
Qed.
(** Closing a port that is not open dereferences a null pointer: aborting a ReceiveCommand twice does this. *)
Theorem C62_close_unopened_refuted p : lstep loopInit (EClose p) = Crash.
Proof. reflexivity. Qed.

Theorem C62_example :
  let h := [EOpen 7 2 1 3; EOpen 8 8 2 4; EArrive 3 [1; 2; 3]%Z; EArrive 4 [4]%Z; EPoll; EArrive 3 [5]%Z; EHandle; EHandle; EClose 8;
            EPoll; EHandle; EOpen 8 8 6 4; EArrive 4 [9]%Z; EPoll; EHandle] in
  wellUsed [] h /\ exists s, lrun loopInit h = Next s [(1, 7, [1; 2]%Z); (2, 8, [4]%Z); (1, 7, [5]%Z); (6, 8, [9]%Z)].
Proof. cbv zeta. split; [cbn; intuition discriminate|]. eexists. vm_compute. reflexivity. Qed.

(** Assumptions *)
Print Assumptions C62_never_fails.
Print Assumptions C62_delivery.
Print Assumptions C62_closed_silent.
Print Assumptions C62_no_leak.
Print Assumptions C62_requests_served.
Print Assumptions C62_progress.
Print Assumptions C62_second_socket_leaks_refuted.
Print Assumptions C62_event_thread_blocks_refuted.
Print Assumptions C62_close_ends_loop_refuted.
Print Assumptions C62_close_unopened_refuted.
Print Assumptions C62_example.
