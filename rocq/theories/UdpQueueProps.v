(** C61: received messages are paired with waiting commands in order, once each, and a message's parameters go
    to the commands that ask for them. *)
From Coq Require Import ZArith List Bool Lia String.
From Verif Require Import ValueModel TypeModel UdpModel UdpQueueModel UdpQueueSpec UdpQueueProofs.
Import ListNotations.

(** Every history of the queues: the i-th command waiting for a name gets the i-th message of that name, as soon
    as both are there; nothing is lost, duplicated, reordered or sent to another name's command. *)
Theorem C61_pairing {V : Type} (l : list (qop V)) k :
  noDupOp l ->
  let '(rets, s) := qrun (qinit true) l in
  retsOf k rets = combine (recipsOf k l) (msgsOf k l)
  /\ rq (ensureQueue (q_map s) k) = skipn (length (msgsOf k l)) (recipsOf k l)
  /\ mq (ensureQueue (q_map s) k) = skipn (length (recipsOf k l)) (msgsOf k l).
Proof.
  intros ND. pose proof (qrun_inv k l ND (qinit true) [] [] eq_refl (conj eq_refl eq_refl)) as H.
  destruct (qrun (qinit true) l) as [a s]. destruct H as [[A B] C]. cbn in C. auto.
Qed.
(** So never both queues are non-empty. *)
Theorem C61_one_queue_empty {V : Type} (l : list (qop V)) k : noDupOp l ->
  let s := snd (qrun (qinit true) l) in rq (ensureQueue (q_map s) k) = [] \/ mq (ensureQueue (q_map s) k) = [].
Proof.
  intros ND. pose proof (C61_pairing l k ND) as H. destruct (qrun (qinit true) l) as [a s]. cbn zeta. cbn [snd]. destruct H as (_ & -> & ->).
  destruct (Nat.le_ge_cases (length (recipsOf k l)) (length (msgsOf k l))); [left|right]; apply skipn_all2; lia.
Qed.
(** Without duplicates, a message nobody waited for is replaced by the next of its name. *)
Theorem C61_newest {V : Type} (l : list (qop V)) k : noDupOp l -> retsOf k (fst (qrun (qinit false) l)) = newest k [] None l.
Proof. intros ND. apply qrun_newest; auto. split; [reflexivity|]. split; [reflexivity|]. auto. Qed.

(** The adapter: the i-th ReceiveCommand of a message name returns the label of the i-th datagram of that message. *)
Theorem C61_receive d h name :
  retsOf (commandKey name) (snd (fst (arun d ainit h))) = combine (receivers name h) (labelsFrom 1 name (datagrams h)).
Proof.
  pose proof (arun_ops d h ainit) as A. destruct (arun d ainit h) as [x s]. cbn [fst].
  pose proof (C61_pairing (opsOf d 1 h) (commandKey name) (opsOf_nodup d h 1)) as P. change (a_q ainit) with (@qinit tval true) in A. change (a_counter ainit) with 1%nat in A.
  rewrite <- A in P. destruct P as [P _]. rewrite P, recips_command, msgs_command. reflexivity.
Qed.
(** GetParameter on the label of the n-th datagram returns that datagram's value, to the first command that asks,
    and to no other. *)
Theorem C61_parameter d h name n i :
  retsOf (paramKey (msgLabel name (S n)) i) (snd (fst (arun d ainit h)))
  = match nth_error (datagrams h) n, askers d (msgLabel name (S n)) i h with
    | Some (s, vs), c :: _ => if str_eq_dec name s then match nth_error vs i with Some v => [(c, v)] | None => [] end else []
    | _, _ => []
    end.
Proof.
  pose proof (arun_ops d h ainit) as A. destruct (arun d ainit h) as [x s]. cbn [fst].
  pose proof (C61_pairing (opsOf d 1 h) (paramKey (msgLabel name (S n)) i) (opsOf_nodup d h 1)) as P. change (a_q ainit) with (@qinit tval true) in A. change (a_counter ainit) with 1%nat in A.
  rewrite <- A in P. destruct P as [P _]. rewrite P, recips_param. pose proof (msgs_param d name n i h 1) as M. change (1 + n)%nat with (S n) in M. rewrite M. clear M.
  destruct (nth_error (datagrams h) n) as [[s' vs]|]; [|destruct (askers d (msgLabel name (S n)) i h); reflexivity].
  destruct (askers d (msgLabel name (S n)) i h) as [|c r]; [reflexivity|].
  destruct (str_eq_dec name s'); [|reflexivity]. destruct (nth_error vs i); [|reflexivity]. destruct r; reflexivity.
Qed.
(** Queues of different messages, parameters and datagrams have different names. *)
Theorem C61_names_distinct :
  (forall a b, commandKey a = commandKey b -> a = b)
  /\ (forall a n i b k j, paramKey (msgLabel a n) i = paramKey (msgLabel b k) j -> a = b /\ n = k /\ i = j)
  /\ (forall a b n i, commandKey a <> paramKey (msgLabel b n) i).
Proof.
  split; [exact commandKey_inj|]. split; [|intros; apply command_param].
  intros a n i b k j H. apply paramKey_inj in H as [A B]. apply msgLabel_inj in A. tauto.
Qed.
(** GetParameter with a received label and a valid index is accepted, if the message name has no colon. *)
Theorem C61_get_accepted d name m n i :
  findDef d name = Some m -> ~ In 58%Z name -> (i < length (m_params m))%nat ->
  getRequest d [Some (TVs (SS (msgLabel name n))); Some (TVs (SI (Z.of_nat i)))] = Some (msgLabel name n, i)
  /\ (i = 0%nat -> getRequest d [Some (TVs (SS (msgLabel name n)))] = Some (msgLabel name n, 0%nat)).
Proof.
  intros F NI L. assert (B : baseName (msgLabel name n) = name).
  { unfold msgLabel. clear - NI. induction name as [|c r IH]; [reflexivity|]. cbn [app baseName]. destruct (Z.eqb_spec c 58) as [->|N].
    - exfalso. apply NI. left. reflexivity.
    - rewrite IH; auto. intros X. apply NI. right. exact X. }
  unfold getRequest. rewrite B, F. split.
  - unfold paramIndex. destruct (Z.ltb_spec (Z.of_nat i) 0); [lia|]. destruct (Z.leb_spec (Z.of_nat (length (m_params m))) (Z.of_nat i)); [lia|].
    cbn [orb]. rewrite Nat2Z.id. reflexivity.
  - intros _. reflexivity.
Qed.
(** One call of addRecipient or addMessage that is not interrupted does what the queue model says. *)
Lemma run_alone t c v r m o ex ud : exists n s, rrun c v (repeat t n) {| r_rq := r; r_mq := m; r_ret := o; r_exec := match t with Exec => PCheck | Udp => ex end;
                                                              r_udp := match t with Exec => ud | Udp => PCheck end |} = Run s
  /\ r_rq s = skipn (length m) r /\ r_mq s = skipn (length r) m /\ r_ret s = o ++ combine r m
  /\ match t with Exec => r_exec s = PDone /\ r_udp s = ud | Udp => r_udp s = PDone /\ r_exec s = ex end.
Proof.
  revert m o. induction r as [|c' r IH]; intros m o.
  - exists 1%nat. destruct t; cbn; eexists; (split; [reflexivity|]); cbn; rewrite skipn_nil, app_nil_r; auto.
  - destruct m as [|v' m].
    + exists 1%nat. destruct t; cbn; eexists; (split; [reflexivity|]); cbn; rewrite app_nil_r; auto.
    + destruct (IH m (o ++ [(c', v')])) as (n & s & E & A & B & C & D). exists (4 + n)%nat, s. rewrite repeat_app.
      split; [destruct t; exact E|]. split; [exact A|]. split; [exact B|]. split; [|exact D]. rewrite C, <- app_assoc. reflexivity.
Qed.
Theorem C61_uninterrupted c v r m :
  (exists n s, rrun c v (repeat Exec n) (rinit r m) = Run s /\ r_exec s = PDone
     /\ (r_ret s, mkPairq (r_rq s) (r_mq s)) = let '(o, q) := pairUp [] (r ++ [c]) m in (map (fun x => (snd (fst x), snd x)) o, q))
  /\ (exists n s, rrun c v (repeat Udp n) (rinit r m) = Run s /\ r_udp s = PDone
     /\ (r_ret s, mkPairq (r_rq s) (r_mq s)) = let '(o, q) := pairUp [] r (m ++ [v]) in (map (fun x => (snd (fst x), snd x)) o, q)).
Proof.
  assert (X : forall l : list (cmd * tval), map (fun x => (snd (fst x), snd x)) (map (fun cv => ([] : str, fst cv, snd cv)) l) = l).
  { induction l as [|[a b] l IH]; cbn; congruence. }
  split.
  - destruct (run_alone Exec c v (r ++ [c]) m [] PPush PPush) as (n & s & E & A & B & C & D & _). exists (S n), s. split; [exact E|]. split; [exact D|].
    rewrite pairUp_eq, X, A, B, C. reflexivity.
  - destruct (run_alone Udp c v r (m ++ [v]) [] PPush PPush) as (n & s & E & A & B & C & D & _). exists (S n), s. split; [exact E|]. split; [exact D|].
    rewrite pairUp_eq, X, A, B, C. reflexivity.
Qed.

(** ** Where the code falls short *)
(** addRecipient runs in the exec's thread and addMessage in the event loop's, and the queues have no lock: the
    same message can be returned twice, and then an empty queue is popped. *)
Theorem C61_race_refuted c v :
  exists sched s, rrun c v sched (rinit [] []) = Bad s /\ r_ret s = [(c, v); (c, v)].
Proof. exists [Exec; Udp; Exec; Udp; Exec; Udp; Exec; Udp]. eexists. split; [vm_compute; reflexivity|]. reflexivity. Qed.
(** With other commands waiting, the wrong one is removed: command 2 never gets an answer. *)
Theorem C61_race_loses_refuted v w :
  exists sched s, rrun 2%nat w sched (rinit [] [v]) = Run s /\ r_exec s = PDone /\ r_udp s = PPush /\ r_ret s = [(2%nat, v)]
  /\ exists sched' s', rrun 2%nat w sched' (rinit [1%nat] []) = Bad s' /\ r_ret s' = [(1%nat, w); (1%nat, w)] /\ r_rq s' = [].
Proof.
  exists [Exec; Exec; Exec; Exec; Exec; Exec]. eexists. split; [vm_compute; reflexivity|]. split; [reflexivity|]. split; [reflexivity|]. split; [reflexivity|].
  exists [Exec; Udp; Exec; Udp; Exec; Udp; Exec; Udp; Exec; Udp]. eexists. split; [vm_compute; reflexivity|]. split; reflexivity.
Qed.
(** An aborted or failed ReceiveCommand stays in its queue and takes the next message. *)
Theorem C61_abort_refuted d name m buf :
  let h c := ARecv c [Some (TVs (SS name))] in
  retsOf (commandKey name) (snd (fst (arun d ainit [h 1%nat true; AAbort 1%nat; h 2%nat true; ADgram name m buf])))
  = [(1%nat, TVs (SS (msgLabel name 1)))]
  /\ retsOf (commandKey name) (snd (fst (arun d ainit [h 1%nat false; h 2%nat true; ADgram name m buf])))
  = [(1%nat, TVs (SS (msgLabel name 1)))]
  /\ fst (fst (arun d ainit [h 1%nat false])) = [(1%nat, AckFailed)].
Proof.
  cbv zeta. rewrite !C61_receive. cbn [receivers datagrams labelsFrom]. destruct (str_eq_dec name name); [|congruence].
  split; [reflexivity|]. split; [reflexivity|]. cbn [arun astep recvRequest]. destruct (addRecipient (a_q ainit) (commandKey name) 1%nat) as [a q]. reflexivity.
Qed.
(** A message whose name contains a colon can be received, but its parameters cannot be fetched. *)
Theorem C61_colon_refuted :
  exists d name m, findDef d name = Some m /\ m_params m <> []
  /\ forall n args, getRequest d (Some (TVs (SS (msgLabel name n))) :: args) = None.
Proof.
  exists [(chars "a:b", mkUdpMsg [mkParam PInt false 4 1] 4)], (chars "a:b"), (mkUdpMsg [mkParam PInt false 4 1] 4).
  split; [reflexivity|]. split; [discriminate|]. intros n args. reflexivity.
Qed.
(** setAllowDuplicateMessages(false) is documented to drop older duplicates at once; it does not. *)
Theorem C61_set_duplicates_refuted {V : Type} k (v w : V) c :
  fst (qrun (qinit true) [QMsg k v; QMsg k w; QDup false; QRecip k c]) = [(k, c, v)].
Proof.
  cbn. unfold addMessage, addRecipient, setAllowDuplicateMessages, updateQueue, ensureQueue. cbn.
  destruct (str_eq_dec k k); [|congruence]. cbn. destruct (str_eq_dec k k); [|congruence]. reflexivity.
Qed.

(** ** A history *)
Theorem C61_example :
  let name := chars "Go" in
  let m := mkUdpMsg [mkParam PInt false 4 1; mkParam PStr false 2 1] 6 in
  let d := [(name, m)] in
  let h := [ARecv 1%nat [Some (TVs (SS name))] true; ADgram name m [0; 0; 0; 7; 65; 66]%Z; ADgram name m [0; 0; 0; 9; 67; 0]%Z;
            ARecv 2%nat [Some (TVs (SS name))] true; AGet 3%nat [Some (TVs (SS (msgLabel name 2)))];
            AGet 4%nat [Some (TVs (SS (msgLabel name 1))); Some (TVs (SI 1))]] in
  map (fun x => (snd (fst x), snd x)) (snd (fst (arun d ainit h)))
  = [(1%nat, TVs (SS (msgLabel name 1))); (2%nat, TVs (SS (msgLabel name 2))); (3%nat, TVs (SI 9)); (4%nat, TVs (SS [65; 66]%Z))].
Proof. vm_compute. reflexivity. Qed.

(** Assumptions *)
Print Assumptions C61_pairing.
Print Assumptions C61_one_queue_empty.
Print Assumptions C61_newest.
Print Assumptions C61_receive.
Print Assumptions C61_parameter.
Print Assumptions C61_names_distinct.
Print Assumptions C61_get_accepted.
Print Assumptions C61_uninterrupted.
Print Assumptions C61_race_refuted.
Print Assumptions C61_race_loses_refuted.
Print Assumptions C61_abort_refuted.
Print Assumptions C61_colon_refuted.
Print Assumptions C61_set_duplicates_refuted.
Print Assumptions C61_example.
