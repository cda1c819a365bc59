(** C67: messages between executives arrive whole, once, in order, and with the values that were sent. *)
From Coq Require Import ZArith List Bool Arith Lia String.
From Verif Require Import ValueModel UdpQueueModel IpcModel IpcSpec IpcProofs.
Import ListNotations.
Open Scope Z_scope.

(** Whatever parts arrive in whatever interleaving: messages are handed over exactly when and as they should be, and the
    receiver goes on. *)
Theorem C67_assembly u l : nulFree u -> noUnsub l -> orderlyAll (partsIn l) ->
  exists r, rrun (recv0 u) l = Some (expected u [] [] l, r).
Proof. intros N NO O. apply run_inv; [exact N|exact NO|apply inv0|exact O]. Qed.

(** A value arrives as it was sent. *)
Theorem C67_value v : sendable v -> exists c, constructPlexilValueMsg v = Msg c /\ format c <> None /\ getPlexilMsgValue c = asReceived v.
Proof. intros S. destruct (value_wire v S) as (c & E & [G _] & D). exists c. auto. Qed.

(** Directed messages are heard by their destination and by no other executive. *)
Theorem C67_directed u d p : nulFree d -> format (p_what p) <> None -> hears u (mkPub d p) = true <-> d = [] \/ d = u.
Proof.
  intros N F. rewrite hears_spec by assumption. unfold heardAt. destruct (str_eq_dec d []) as [->|D]; [tauto|]. destruct (str_eq_dec d u) as [->|E]; intuition congruence.
Qed.

Lemma history_seen u n s calls : Forall callOk calls -> Z.of_nat (length calls) < 4294967295 ->
  let ps := seenBy u (published s calls) in
  (forall p, In p ps -> p_uid p = cstr s) /\ (forall k, orderly (ofKey k ps))
  /\ map (fun d => readMsg (snd d)) (expected u [(n, None)] [] (map EPart ps)) = inbox u 1 calls
  /\ Forall (fun d => fst d = n) (expected u [(n, None)] [] (map EPart ps)).
Proof.
  intros C L. destruct (calls_seen u n calls C (facade0 s)) as (K & O & X); [discriminate|cbn [facade0 f_next]; lia|]. cbn zeta. split; [intros p I; apply K, I|]. split; [exact O|].
  apply X. intros q [].
Qed.
Definition heard (u s : str) (calls : list scall) : list part := map d_part (filter (hears u) (published s calls)).
Lemma received_prefix u n (hist : str -> list scall) l :
  nulFree u -> (forall s, hist s <> [] -> nulFree s /\ Forall callOk (hist s) /\ Z.of_nat (length (hist s)) < 4294967295) ->
  (forall s, prefix (filter (fromSender s) l) (heard u s (hist s))) ->
  exists out r, rrun (recv0 u) (ESubAll n :: map EPart l) = Some (out, r)
    /\ forall s, filter (sentBy s) out = expected u [(n, None)] [] (map EPart (filter (fromSender s) l)).
Proof.
  intros N H P.
  assert (O : orderlyAll l).
  { intros p I. rewrite <- (mine_sender (p_uid p) p l eq_refl), ofKey_filter. destruct (P (p_uid p)) as [c E].
    assert (A : orderly (ofKey (idOf p) (filter (fromSender (p_uid p)) l ++ c))).
    { rewrite <- E. destruct (hist (p_uid p)) as [|k r] eqn:EH.
      - assert (I' : In p (filter (fromSender (p_uid p)) l ++ c)) by (apply in_or_app; left; apply filter_In; split; [exact I|apply fromSender_true; reflexivity]). rewrite <- E in I'. destruct I'.
      - destruct (H (p_uid p)) as (_ & C & B); [rewrite EH; discriminate|]. rewrite EH in *. apply (history_seen u n (p_uid p) (k :: r) C B). }
    rewrite ofKey_app in A. apply orderly_prefix in A. exact A. }
  destruct (C67_assembly u (ESubAll n :: map EPart l) N) as (r & E).
  - intros m [D|I]; [discriminate D|]. apply noUnsub_map in I. exact I.
  - cbn [partsIn]. rewrite partsIn_map. exact O.
  - exists (expected u [(n, None)] [] (map EPart l)), r. split; [exact E|]. intros s. rewrite expected_sender. reflexivity.
Qed.
(** From sender to receiver: any number of executives send, and the network keeps the order of each. A listener of
    executive [u] gets from each of them exactly the messages that are for [u], each once, in the order sent, with the
    serial number the sender was given, the names and the values sent. *)
Theorem C67_end_to_end u n (hist : str -> list scall) l :
  nulFree u -> (forall s, hist s <> [] -> nulFree s /\ Forall callOk (hist s) /\ Z.of_nat (length (hist s)) < 4294967295) ->
  (forall s, filter (fromSender s) l = heard u s (hist s)) ->
  exists out r, rrun (recv0 u) (ESubAll n :: map EPart l) = Some (out, r)
    /\ forall s, map (fun d => readMsg (snd d)) (filter (sentBy s) out) = inbox u 1 (hist s) /\ Forall (fun d => fst d = n) (filter (sentBy s) out).
Proof.
  intros N H P. destruct (received_prefix u n hist l N H) as (out & r & E & F); [intros s; exists []; rewrite app_nil_r, P; reflexivity|].
  exists out, r. split; [exact E|]. intros s. rewrite F, P. destruct (hist s) as [|k t] eqn:EH; [cbn; split; [reflexivity|constructor]|].
  destruct (H s) as (_ & C & B); [rewrite EH; discriminate|]. rewrite EH in *. apply (history_seen u n s (k :: t) C B).
Qed.
Lemma expected_prefix u subs seen a b : prefix a b -> prefix (expected u subs seen (map EPart a)) (expected u subs seen (map EPart b)).
Proof. intros [c ->]. rewrite map_app, expected_app. eexists. reflexivity. Qed.
Lemma prefix_map {A B} (f : A -> B) a b : prefix a b -> prefix (map f a) (map f b).
Proof. intros [c ->]. rewrite map_app. eexists. reflexivity. Qed.
(** The same when a sender stops, or is cut off, at any point: what was sent completely arrives, and nothing is made up. *)
Theorem C67_interrupted u n (hist : str -> list scall) l :
  nulFree u -> (forall s, hist s <> [] -> nulFree s /\ Forall callOk (hist s) /\ Z.of_nat (length (hist s)) < 4294967295) ->
  (forall s, prefix (filter (fromSender s) l) (heard u s (hist s))) ->
  exists out r, rrun (recv0 u) (ESubAll n :: map EPart l) = Some (out, r)
    /\ forall s, prefix (map (fun d => readMsg (snd d)) (filter (sentBy s) out)) (inbox u 1 (hist s))
       /\ forall m, prefix (heard u s (firstn m (hist s))) (filter (fromSender s) l) ->
            prefix (inbox u 1 (firstn m (hist s))) (map (fun d => readMsg (snd d)) (filter (sentBy s) out)).
Proof.
  intros N H P. destruct (received_prefix u n hist l N H P) as (out & r & E & F). exists out, r. split; [exact E|]. intros s. rewrite F.
  destruct (hist s) as [|k t] eqn:EH.
  { destruct (P s) as [c Q]. rewrite EH in Q. cbn in Q. destruct (filter (fromSender s) l); [|discriminate Q]. split; [exists []; reflexivity|]. intros m _. rewrite firstn_nil. exists []. reflexivity. }
  destruct (H s) as (_ & C & B); [rewrite EH; discriminate|]. rewrite EH in *. rewrite <- EH in *.
  destruct (history_seen u n s (hist s) C B) as (_ & _ & I & _). split.
  - rewrite <- I. apply prefix_map, expected_prefix, P.
  - intros m Q. destruct (history_seen u n s (firstn m (hist s))) as (_ & _ & I2 & _).
    + apply Forall_forall. intros x J. rewrite Forall_forall in C. apply C. rewrite <- (firstn_skipn m). apply in_or_app. left. exact J.
    + rewrite firstn_length. lia.
    + rewrite <- I2. apply prefix_map, expected_prefix, Q.
Qed.

(** The caller is told: a message reported as sent is published whole under the serial number returned; one reported as
    failed is not handed over by any receiver. *)
Lemma publishAll_shape net i l o s : publishAll net i l = (o, s) -> exists r, l = o ++ r /\ (s = Some true -> r = []) /\ (s <> Some true -> r <> []).
Proof.
  revert i o s. induction l as [|x l IH]; intros i o s; cbn [publishAll]; [intros E; injection E as <- <-; exists []; repeat split; congruence|].
  destruct (publish net i x) as [[]|]; [|intros E; injection E as <- <-; exists (x :: l); repeat split; congruence|intros E; injection E as <- <-; exists (x :: l); repeat split; congruence].
  destruct (publishAll net (S i) l) as [o' s'] eqn:E. intros Q. injection Q as <- <-. destruct (IH _ _ _ E) as (r & -> & A & B). exists r. repeat split; auto.
Qed.

Theorem C67_reported u f net k : nulFree u -> callOk k -> 0 <= f_next f < ERROR_SERIAL ->
  let '(o, e, _) := send f net k in
  (e = Gives (match k with SMessage _ => 1 | _ => f_next f end) -> o = fst (fst (send f working k)))
  /\ (e = Gives (match k with SMessage _ => 0 | _ => ERROR_SERIAL end) -> complete u (map d_part (filter (hears u) o)) = false)
  /\ e <> Dies.
Proof.
  intros NU O B. destruct (rest_ok (f_uid f) (f_next f) k O) as (cs & E & G & L & _). destruct (send_ok f k O) as (cs' & E' & _). clear cs' E'.
  assert (DI : forall (b : bool), (Gives (if b then match k with SMessage _ => 1 | _ => f_next f end else match k with SMessage _ => 0 | _ => ERROR_SERIAL end))
      = match k with SMessage _ => Gives (if b then 1 else 0) | _ => Gives (if b then f_next f else ERROR_SERIAL) end) by (intros b; destruct k; reflexivity).
  unfold send. cbn zeta. set (lead := mkPub _ _). assert (F : exists t, format (p_what (d_part lead)) = Some t) by (cbn; destruct (format (leaderOf k)) eqn:F; [eauto|destruct (leader_format k F)]).
  destruct F as [t F].
  assert (PW : publish working 0 lead = Some true) by (unfold publish; rewrite F; reflexivity). rewrite PW, (E working), publishAll_ok by (apply trailers_pub, G).
  assert (PN : publish net 0 lead = Some (net 0%nat)) by (unfold publish; rewrite F; reflexivity). rewrite PN. destruct (net 0%nat).
  - rewrite E. destruct (publishAll net 1 (map (mkPub (restDest k)) (trailers (f_uid f) (f_next f) 0 cs))) as [o s] eqn:Q.
    destruct (publishAll_shape _ _ _ _ _ Q) as (r & R & T1 & T2). cbn [fst].
    assert (SN : s <> None).
    { clear - Q G. assert (FA := trailers_pub (f_uid f) (f_next f) 0 cs (restDest k) G). revert Q FA. generalize (map (mkPub (restDest k)) (trailers (f_uid f) (f_next f) 0 cs)) 1%nat.
      intros l. revert o s. induction l as [|x l IH]; intros o s i Q FA; cbn [publishAll] in Q; [congruence|]. inversion FA; subst. unfold publish in Q. destruct (format (p_what (d_part x))); [|congruence].
      destruct (net i); [|congruence]. destruct (publishAll net (S i) l) as [o' s'] eqn:Q'. assert (s = s') by congruence. subst s'. apply (IH _ _ _ Q'). assumption. }
    destruct s as [b|]; [|congruence]. unfold result. rewrite <- DI. split; [|split].
    + intros GE. assert (b = true) by (destruct b; [reflexivity|]; exfalso; destruct k; cbn in GE; unfold ERROR_SERIAL in *; assert (forall x y, Gives x = Gives y -> x = y) as IG by congruence; apply IG in GE; lia).
      subst b. rewrite (T1 eq_refl), app_nil_r in R. rewrite R. reflexivity.
    + intros GE. assert (b = false) by (destruct b; [|reflexivity]; exfalso; destruct k; cbn in GE; unfold ERROR_SERIAL in *; assert (forall x y, Gives x = Gives y -> x = y) as IG by congruence; apply IG in GE; lia).
      subst b. assert (RN : r <> []) by (apply T2; discriminate).
      assert (LO : (length o < length cs)%nat).
      { assert (LL : length (map (mkPub (restDest k)) (trailers (f_uid f) (f_next f) 0 cs)) = length cs) by (rewrite map_length; apply trailers_length). rewrite R, app_length in LL. destruct r; [congruence|cbn [length] in LL; lia]. }
      cbn [filter]. destruct (hears u lead).
      * cbn [map complete]. change (d_part lead) with (leaderPart (f_uid f) (f_next f) k). rewrite (leaderNeeds _ _ _ _ L). rewrite map_length.
        assert (LF : (length (filter (hears u) o) <= length o)%nat) by (clear; induction o as [|x o IH]; cbn; [lia|]; destruct (hears u x); cbn; lia).
        destruct (Nat.eqb_spec (length (filter (hears u) o)) (length cs)); [lia|]. rewrite andb_false_r. reflexivity.
      * destruct (filter (hears u) o) as [|x w] eqn:FO; [reflexivity|]. cbn [map complete].
        assert (IX : In x (map (mkPub (restDest k)) (trailers (f_uid f) (f_next f) 0 cs))) by (rewrite R; apply in_or_app; left; eapply proj1; apply filter_In; rewrite FO; left; reflexivity).
        apply in_map_iff in IX. destruct IX as (y & <- & IY). destruct (trailers_in _ _ _ _ _ IY G) as (_ & V & _). cbn [d_part]. rewrite V. reflexivity.
    + destruct b; discriminate.
  - unfold result. split; [|split; [reflexivity|destruct k; discriminate]].
    intros GE. exfalso. destruct k; cbn in GE; unfold ERROR_SERIAL in *; assert (forall x y, Gives x = Gives y -> x = y) as IG by congruence; apply IG in GE; lia.
Qed.

(** ** Where it fails *)
(** A command handle has no message format: the leader is sent, the value never is; as a return value it ends the program. *)
Theorem C67_handle_refuted f net n name uid h : net 0%nat = true -> (exists c u, uid = c :: u) ->
  send f net (SCommand name [] [VHandle h]) =
    ([mkPub [] {| p_what := KCommand (cstr name); p_count := 1; p_serial := f_next f; p_uid := cstr (f_uid f) |}], Gives ERROR_SERIAL, {| f_uid := f_uid f; f_next := u32 (f_next f + 1) |})
  /\ snd (fst (send f net (SReturn n uid (VHandle h)))) = Dies.
Proof. intros N (c & u & ->). unfold send, publish. cbn. rewrite !N. split; reflexivity. Qed.
(** Values of the other internal types, arrays with an unknown element, and unknown values of planner updates end the program
    after the leader has been sent. *)
Theorem C67_sender_dies_refuted f net name v k l : net 0%nat = true ->
  snd (fst (send f net (SCommand name [] [VNodeState v]))) = Dies
  /\ snd (fst (send f net (SCommand name [] [VIntArr {| a_known := [true; false]; a_cont := l |}]))) = Dies
  /\ snd (fst (send f net (SUpdate name [(k, VUnk INTEGER_TYPE)]))) = Dies
  /\ fst (fst (send f net (SUpdate name [(k, VUnk INTEGER_TYPE)]))) <> [].
Proof. intros N. unfold send, publish. cbn. rewrite !N. repeat split. discriminate. Qed.
(** A message that could not be published is not reported as failed: publishMessage returns the IPC code. *)
Theorem C67_message_failure_refuted f net s : net 0%nat = false ->
  send f net (SMessage s) = ([], Gives 0, {| f_uid := f_uid f; f_next := u32 (f_next f + 1) |}) /\ 0 <> ERROR_SERIAL.
Proof. intros N. unfold send, publish. cbn. rewrite N. split; [reflexivity|discriminate]. Qed.
(** With 65536 arguments the count wraps to 0, and the command is handed over without any. *)
Theorem C67_count_refuted u n s i name args : Z.of_nat (length args) = 65536 ->
  let lead := {| p_what := leaderOf (SCommand name [] args); p_count := leaderCount (SCommand name [] args); p_serial := i; p_uid := s |} in
  exists r, rrun (recv0 u) [ESubAll n; EPart lead] = Some ([(n, [lead])], r) /\ readMsg [lead] = (i, RCommand (cstr name) []).
Proof.
  intros L lead. assert (C : p_count lead = 0) by (cbn [lead p_count leaderCount]; rewrite L; reflexivity).
  eexists. cbn [rrun rstep]. unfold handleMessage. change (p_what lead) with (KCommand (cstr name)). cbv iota. rewrite C. split; reflexivity.
Qed.
(** Strings end at a NUL. *)
Theorem C67_nul_refuted a b : nulFree a -> exists c, constructPlexilValueMsg (VStr (a ++ 0 :: b)) = Msg c /\ getPlexilMsgValue c = VStr a.
Proof.
  intros N. exists (KStr a). cbn. split; [|reflexivity]. do 2 f_equal. induction a as [|x a IH]; [reflexivity|]. cbn.
  destruct (Z.eqb_spec x 0) as [->|D]; [exfalso; apply N; left; reflexivity|]. f_equal. apply IH. intros I. apply N. right. exact I.
Qed.
(** A sender that stopped in the middle of a message and starts again under the same name ends its receivers: serial
    numbers start at 1 again, and the leader looks like a duplicate. *)
Theorem C67_restart_refuted u n s name args1 args2 : nulFree s ->
  let lead args := {| p_what := KCommand name; p_count := Z.of_nat (length args); p_serial := f_next (facade0 s); p_uid := s |} in
  args1 <> ([] : list val) -> args2 <> ([] : list val) ->
  rrun (recv0 u) [ESubAll n; EPart (lead args1); EPart (lead args2)] = None.
Proof.
  intros N lead A1 A2. cbn [rrun rstep]. unfold handleMessage.
  assert (Z1 : forall a : list val, a <> [] -> (p_count (lead a) =? 0) = false) by (intros [|x a] H; [congruence|reflexivity]).
  change (p_what (lead args1)) with (KCommand name). cbv iota. rewrite (Z1 _ A1). unfold cacheMessageLeader at 1. cbn [r_inc recv0 findInc]. rewrite (Z1 _ A1).
  change (p_what (lead args2)) with (KCommand name). cbv iota. rewrite (Z1 _ A2). unfold cacheMessageLeader. cbn [withInc r_inc setInc findInc].
  change (idOf (lead args2)) with (s, 1). change (idOf (lead args1)) with (s, 1). destruct (msgId_dec (s, 1) (s, 1)); [reflexivity|congruence].
Qed.
(** Two threads of one executive (the plan's commands, and the IPC thread's answers to lookups) take serial numbers without
    a lock: with the same number, the receiver ends. *)
Theorem C67_serial_race_refuted f u n a b x y :
  exists o1 o2, fst (fst (send f working (STelemetry a [VInt x]))) = o1 /\ fst (fst (send f working (STelemetry b [VInt y]))) = o2
  /\ forall p1 t1 p2 t2, map d_part o1 = [p1; t1] -> map d_part o2 = [p2; t2] ->
     rrun (recv0 u) [ESubAll n; EPart p1; EPart p2; EPart t1; EPart t2] = None.
Proof.
  do 2 eexists. split; [reflexivity|]. split; [reflexivity|]. intros p1 t1 p2 t2 E1 E2. vm_compute in E1, E2.
  injection E1 as <- <-. injection E2 as <- <-. cbn [rrun rstep]. unfold handleMessage. cbn [p_what]. unfold cacheMessageLeader at 1. cbn [r_inc findInc recv0 p_count].
  change (1 =? 0) with false. cbv iota. unfold cacheMessageLeader. cbn [withInc r_inc setInc findInc].
  match goal with |- context [msgId_dec ?p ?q] => destruct (msgId_dec p q) as [E|D]; [reflexivity|exfalso; apply D; reflexivity] end.
Qed.
(** unsubscribe does not unsubscribe: the only listener stays; of two, the other one is served twice; a listener to one
    type stays too. *)
Theorem C67_unsubscribe_refuted u n m p : p_what p = KNotify -> n <> m ->
  (exists r, rrun (recv0 u) [ESubAll n; EUnsub n; EPart p] = Some ([(n, [p])], r))
  /\ (exists r, rrun (recv0 u) [ESubAll n; ESubAll m; EUnsub n; EPart p] = Some ([(m, [p]); (m, [p])], r))
  /\ (exists r, rrun (recv0 u) [ESub n (typeCode KNotify); EUnsub n; EPart p] = Some ([(n, [p])], r)).
Proof.
  intros W D. cbn [rrun rstep]. unfold handleMessage. rewrite W. unfold deliverMessages. rewrite W. cbn [r_all r_reg recv0 app regsFor addReg stdRemove].
  unfold stdRemove. cbn [filter]. rewrite Nat.eqb_refl. assert (E : Nat.eqb m n = false) by (apply Nat.eqb_neq; congruence). rewrite E. cbn.
  split; [eexists; reflexivity|]. split; eexists; reflexivity.
Qed.

(** ** A concrete case *)
Definition exA : str := chars "A". Definition exB : str := chars "B". Definition exC : str := chars "C".
Definition exHist (s : str) : list scall :=
  if str_eq_dec s exA then [SCommand (chars "go") [] [VInt 3; VStr (chars "x")]; SMessage (chars "hi"); SCommand (chars "stop") exC [VBool true]]
  else if str_eq_dec s exC then [SReturn 7 exB (VBool true); SReturn 8 exA (VInt 1); STelemetry (chars "t") [VReal 0; VUnk REAL_TYPE]]
  else [].
Definition exParts : list part :=
  match heard exB exA (exHist exA), heard exB exC (exHist exC) with
  | a1 :: a2 :: a3 :: r, c1 :: c2 :: c3 :: q => a1 :: c1 :: a2 :: c2 :: c3 :: a3 :: q ++ r
  | _, _ => []
  end.
Theorem C67_example :
  nulFree exB /\ (forall s, exHist s <> [] -> nulFree s /\ Forall callOk (exHist s) /\ Z.of_nat (length (exHist s)) < 4294967295)
  /\ (forall s, filter (fromSender s) exParts = heard exB s (exHist s))
  /\ inbox exB 1 (exHist exA) = [(1, RCommand (chars "go") [VInt 3; VStr (chars "x")]); (2, RMessage (chars "hi"))]
  /\ inbox exB 1 (exHist exC) = [(1, RReturn 7 [VBool true]); (3, RTelemetry (chars "t") [VReal 0; VUnk UNKNOWN_TYPE])]
  /\ length exParts = 10%nat.
Proof.
  split; [vm_compute; intuition discriminate|]. split.
  { intros s H. unfold exHist in *. destruct (str_eq_dec s exA) as [->|DA]; [|destruct (str_eq_dec s exC) as [->|DC]; [|congruence]];
      (split; [vm_compute; intuition discriminate|split; [|reflexivity]]); repeat constructor; cbn; unfold nulFree; try (vm_compute; intuition discriminate);
      try (intros v [<-|[<-|[]]]; cbn; try exact Logic.I; unfold nulFree; vm_compute; intuition discriminate);
      try (intros v [<-|[]]; exact Logic.I). }
  split; [|vm_compute; auto].
  intros s. unfold exHist. destruct (str_eq_dec s exA) as [->|DA]; [vm_compute; reflexivity|]. destruct (str_eq_dec s exC) as [->|DC]; [vm_compute; reflexivity|].
  change (heard exB s []) with (@nil part). 
  assert (U : forall p, In p exParts -> p_uid p = exA \/ p_uid p = exC) by (apply Forall_forall; vm_compute; repeat constructor; auto).
  revert U. generalize exParts. intros l0 U. induction l0 as [|p l IH]; [reflexivity|]. cbn [filter]. unfold fromSender at 1. destruct (str_eq_dec (p_uid p) s) as [E|_]; [|apply IH; intros; apply U; right; assumption].
  destruct (U p (or_introl eq_refl)); congruence.
Qed.

(** Assumptions *)
Print Assumptions C67_assembly.
Print Assumptions C67_value.
Print Assumptions C67_directed.
Print Assumptions C67_end_to_end.
Print Assumptions C67_interrupted.
Print Assumptions C67_reported.
Print Assumptions C67_handle_refuted.
Print Assumptions C67_sender_dies_refuted.
Print Assumptions C67_message_failure_refuted.
Print Assumptions C67_count_refuted.
Print Assumptions C67_nul_refuted.
Print Assumptions C67_restart_refuted.
Print Assumptions C67_serial_race_refuted.
Print Assumptions C67_unsubscribe_refuted.
Print Assumptions C67_example.
