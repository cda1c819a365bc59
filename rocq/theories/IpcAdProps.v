(** C68: executives command, answer and look each other up through the IPC adapter. *)
From Coq Require Import ZArith List Bool Arith Lia String.
From Verif Require Import ValueModel CacheModel CacheSpec CacheProofs UdpQueueModel UdpQueueSpec UdpQueueProofs UdpQueueProps LitModel IpcModel IpcSpec IpcProofs IpcAdModel IpcAdSpec IpcAdProofs.
Import ListNotations.
Open Scope Z_scope.

(** ** Commands of other executives *)
(** The label a command is received under tells the serial number and the sender, for every serial number and every sender. *)
Theorem C68_label n u : 0 <= n < 4294967296 ->
  parseLabel (cmdLabel n u) = Some (n, u) /\ forall m w, 0 <= m < 4294967296 -> cmdLabel n u = cmdLabel m w -> n = m /\ u = w.
Proof. intros N. split; [apply label_parse, N|]. intros m w M E. eapply label_inj; eauto. Qed.
(** With duplicates, the i-th ReceiveCommand of a name returns the label of the i-th command received under this name. *)
Theorem C68_receive u decls h o s name : xrun (xinit u true decls) h = Some (o, s) -> plainNames h ->
  retsOf (commandKey name) (queueReturns o) = combine (receivers name h) (labelsFor name h).
Proof.
  intros R P. apply run_q in R. unfold qStep in R. cbn [fst snd] in R. destruct (inv_init u true decls) as (_ & _ & _ & _ & Q). rewrite Q in R.
  pose proof (C61_pairing (queueOps h) (commandKey name) (noDup_ops h)) as C. rewrite <- R in C. destruct C as [C _]. rewrite C, recips_command, msgs_command by exact P. reflexivity.
Qed.
(** Without them (the default), a command nobody waited for is replaced by the next of its name. *)
Theorem C68_receive_newest u decls h o s name : xrun (xinit u false decls) h = Some (o, s) ->
  retsOf (commandKey name) (queueReturns o) = newest (commandKey name) [] None (queueOps h).
Proof.
  intros R. apply run_q in R. unfold qStep in R. cbn [fst snd] in R. destruct (inv_init u false decls) as (_ & _ & _ & _ & Q). rewrite Q in R.
  rewrite <- C61_newest by apply noDup_ops. rewrite <- R. reflexivity.
Qed.
Lemma combine_one {A B} (l : list A) (v : B) : combine l [v] = match l with c :: _ => [(c, v)] | [] => [] end.
Proof. destruct l as [|c l]; [reflexivity|]. cbn. destruct l; reflexivity. Qed.
Lemma combine_none {A B} (l : list A) : combine l (@nil B) = [].
Proof. destruct l; reflexivity. Qed.
Lemma params_unique l n u name args i : (forall x, In x l -> 0 <= fst (fst (fst x)) < 4294967296) -> NoDup (map (fun x => fst (fst x)) l) -> In (n, u, name, args) l ->
  flat_map (paramsUnder (cmdLabel n u) i) l = match nth_error args i with Some v => [v] | None => [] end.
Proof.
  intros RG. assert (RN : In (n, u, name, args) l -> 0 <= n < 4294967296) by (intros I; apply (RG _ I)). intros ND I. specialize (RN I).
  assert (OUT : forall l', (forall x, In x l' -> 0 <= fst (fst (fst x)) < 4294967296) -> ~ In (n, u) (map (fun x => fst (fst x)) l') -> flat_map (paramsUnder (cmdLabel n u) i) l' = []).
  { induction l' as [|[[[m w] nm] ar] l' IH]; intros R N; [reflexivity|]. cbn [flat_map paramsUnder]. destruct (streqb (cmdLabel m w) (cmdLabel n u)) eqn:E.
    - apply streqb_true in E. apply label_inj in E; [|apply (R _ (or_introl eq_refl))|exact RN]. destruct E as [-> ->]. elim N. left. reflexivity.
    - apply IH; [intros x X; apply R; right; exact X|]. intros X. apply N. right. exact X. }
  induction l as [|[[[m w] nm] ar] l IH]; [destruct I|]. cbn [map fst] in ND. inversion ND as [|a b N1 N2]; subst. cbn [flat_map paramsUnder]. destruct I as [E|I].
  - injection E as -> -> -> ->. rewrite streqb_refl, OUT; [|intros x X; apply RG; right; exact X|exact N1]. destruct (nth_error args i); reflexivity.
  - destruct (streqb (cmdLabel m w) (cmdLabel n u)) eqn:E.
    + apply streqb_true in E. apply label_inj in E; [|apply (RG _ (or_introl eq_refl))|exact RN]. destruct E as [-> ->]. elim N1. apply (in_map (fun x => fst (fst x))) in I. exact I.
    + apply IH; [intros x X; apply RG; right; exact X|exact N2|exact I].
Qed.
(** GetParameter on the label of a command received returns its argument, to the first command that asks, with duplicates and
    without. *)
Theorem C68_parameter u dup decls h o s n w name args i : xrun (xinit u dup decls) h = Some (o, s) -> plainNames h ->
  (forall x, In x (received h) -> 0 <= fst (fst (fst x)) < 4294967296) -> NoDup (map (fun x => fst (fst x)) (received h)) ->
  In (n, w, name, args) (received h) ->
  retsOf (paramKey (cmdLabel n w) i) (queueReturns o)
  = match nth_error args i, askers (cmdLabel n w) i h with Some v, c :: _ => [(c, v)] | _, _ => [] end.
Proof.
  intros R P RG ND I. apply run_q in R. unfold qStep in R. cbn [fst snd] in R. destruct (inv_init u dup decls) as (_ & _ & _ & _ & Q). rewrite Q in R.
  pose proof (msgs_param (cmdLabel n w) i h P) as M. rewrite (params_unique _ _ _ _ _ i RG ND I) in M. pose proof (recips_param (cmdLabel n w) i h P) as RP.
  assert (G : retsOf (paramKey (cmdLabel n w) i) (queueReturns o) = combine (recipsOf (paramKey (cmdLabel n w) i) (queueOps h)) (msgsOf (paramKey (cmdLabel n w) i) (queueOps h))).
  { destruct dup.
    - pose proof (C61_pairing (queueOps h) (paramKey (cmdLabel n w) i) (noDup_ops h)) as C. rewrite <- R in C. destruct C as [C _]. exact C.
    - pose proof (C61_newest (queueOps h) (paramKey (cmdLabel n w) i) (noDup_ops h)) as C. rewrite <- R in C. cbn [fst] in C. rewrite C, M.
      destruct (nth_error args i) as [v|]; [rewrite (newest_one _ _ v) by exact M; reflexivity|]. rewrite newest_none by exact M. rewrite combine_none. reflexivity. }
  rewrite G, M, RP. destruct (nth_error args i); [apply combine_one|apply combine_none].
Qed.
(** The i-th ReceiveMessage of a message returns it when it comes for the i-th time. *)
Theorem C68_message u decls h o s m : xrun (xinit u true decls) h = Some (o, s) -> reserved m = false ->
  retsOf m (queueReturns o) = combine (listeners m h) (copies m h).
Proof.
  intros R RS. apply run_q in R. unfold qStep in R. cbn [fst snd] in R. destruct (inv_init u true decls) as (_ & _ & _ & _ & Q). rewrite Q in R.
  pose proof (C61_pairing (queueOps h) m (noDup_ops h)) as C. rewrite <- R in C. destruct C as [C _]. rewrite C. clear C Q R.
  assert (NK : forall k, reserved k = true -> m <> k) by (intros k K E; congruence).
  f_equal.
  - induction h as [|x h IH]; [reflexivity|]. rewrite queueOps_cons, recipsOf_app, IH. cbn [listeners flat_map]. f_equal. unfold queueOps. cbn [flat_map]. rewrite app_nil_r. destruct x as [net c n a| | | | | | |net ok ms]; try reflexivity.
    + unfold asks. destruct (streqb n (chars "ReceiveMessage")) eqn:E1.
      * destruct a as [|[] [|]]; try reflexivity. cbn [recipsOf andb]. destruct (str_eq_dec m s0) as [<-|E2]; [rewrite streqb_refl; reflexivity|]. destruct (streqb s0 m) eqn:E3; [apply streqb_true in E3; congruence|reflexivity].
      * assert (NO : forall k, reserved k = true -> recipsOf m [QRecip (V := val) k c] = []) by (intros k K; cbn [recipsOf]; destruct (str_eq_dec m k) as [E|]; [elim (NK k K E)|reflexivity]).
        assert (RHS : match a with [VStr x] => if false && streqb x m then [c] else [] | _ => [] end = @nil cmd) by (destruct a as [|[] [|]]; reflexivity). rewrite RHS.
        destruct (streqb n (chars "ReceiveCommand")); [destruct a as [|[] [|]]; try reflexivity; apply NO, reserved_command|].
        destruct (streqb n (chars "GetParameter")); [|reflexivity]. destruct a as [|[] [|[] [|]]]; try reflexivity; try (apply NO, reserved_param). destruct (0 <=? n0); [apply NO, reserved_param|reflexivity].
    + clear. induction (offers ms) as [|[k v] l IH]; [reflexivity|exact IH].
  - induction h as [|x h IH]; [reflexivity|]. rewrite queueOps_cons, msgsOf_app, IH. unfold copies. cbn [messages flat_map]. rewrite flat_map_app. f_equal. unfold queueOps. cbn [flat_map]. rewrite app_nil_r. destruct x as [net c n a| | | | | | |net ok ms]; try reflexivity.
    + destruct (asks n a); reflexivity.
    + cbn [flat_map]. rewrite app_nil_r. unfold offers. destruct ms as [|p r]; [reflexivity|]. destruct (readMsg (p :: r)) as [n [x|x args|x args|q v|x v|x v|]] eqn:E; try reflexivity.
      * cbn [map fst snd msgsOf]. destruct (str_eq_dec m x) as [<-|E2]; [rewrite streqb_refl; reflexivity|]. destruct (streqb x m) eqn:E3; [apply streqb_true in E3; congruence|reflexivity].
      * cbn [map fst snd msgsOf]. destruct (str_eq_dec m (commandKey x)) as [K|_]; [elim (NK _ (reserved_command x) K)|]. rewrite offers_map. apply msgsOf_params_other. intros i K. elim (NK _ (reserved_param _ i) K).
Qed.

(** ** Values returned *)
(** A value returned reaches the command that was sent under the number it names, and no other; values for commands never sent
    are ignored. *)
Theorem C68_return u dup decls h t s net ok ms n r v a s' :
  xtrace (xinit u dup decls) h = Some (t, s) -> Z.of_nat (length h) + 1 < ERROR_SERIAL -> whole ms -> readMsg ms = (n, RReturn r [v]) ->
  xstep (IRecv net ok ms) s = Some (a, s') ->
  (forall c, In (r, c) (sentCommands None t) -> a = [OReturn c v; ONotify] /\ s' = s)
  /\ ((forall c, ~ In (r, c) (sentCommands None t)) -> a = [] /\ (r <> x_lserial s -> s' = s)).
Proof.
  intros T B W RM X. destruct (inv_init u dup decls) as (I0 & N0 & P0 & (Q0 & _) & _).
  destruct (trace_inv _ _ _ _ T I0) as [V PD]; [rewrite N0; lia|]. rewrite P0 in PD. unfold lastSent in PD. rewrite Q0 in PD. cbn [app] in PD.
  destruct V as (V1 & V2 & V3 & V4). destruct ms as [|p rs]; [destruct W|]. destruct W as (WC & WV & WK). unfold readMsg in RM. destruct (p_what p) eqn:PW; try (exfalso; congruence).
  destruct rs as [|q [|]]; try discriminate WK. cbn [map] in RM. assert (r = request) by congruence. assert (v = valOf q) by (unfold valOf; congruence). clear RM. subst r v.
  assert (E : (a, s') = gotReturn p request [q] s).
  { cbn [xstep] in X. unfold receiveMessages in X. rewrite PW in X. destruct (x_phase s); try discriminate X; try congruence. destruct (needsLookupMutex _ s); [discriminate X|congruence]. }
  assert (NS : x_phase s <> Stopped) by (intros Q; rewrite stopped_step in X by exact Q; discriminate X).
  rewrite <- PD. clear X. unfold gotReturn in E. rewrite WC in E. change (Z.of_nat (length [q]) =? 1) with true in E. cbv iota in E.
  assert (NQ : (p_count q =? MSG_COUNT_CMD_ACK) = false) by (apply Z.eqb_neq, (WV q (or_introl eq_refl))). rewrite NQ in E. split.
  - intros c I. destruct (Z.eqb_spec request (x_lserial s)) as [L|L].
    + exfalso. pose proof (V2 _ _ I) as RG. assert (IM : In request (map fst (x_pend s))) by (apply (in_map fst) in I; exact I).
      clear - V4 L RG IM NS. destruct (x_phase s); try lia; [rewrite <- L in V4; contradiction|congruence].
    + rewrite (proj2 (pendFind_in _ _ c V3) I) in E. split; congruence.
  - intros NI. destruct (Z.eqb_spec request (x_lserial s)) as [L|L]; [split; [congruence|intros; congruence]|].
    destruct (pendFind request (x_pend s)) as [c|] eqn:F; [|split; congruence]. apply (pendFind_in _ _ _ V3) in F. elim (NI c F).
Qed.

(** ** Lookups *)
(** A lookup of an external state of one's own is answered with the last update, or the declared default. *)
Theorem C68_own_lookup u dup decls h o s net st v : xrun (xinit u dup decls) h = Some (o, s) -> statesOk decls h -> okState st ->
  x_phase s = Idle -> known decls h st = Some v -> xstep (XLookup net st) s = Some ([OAnswer v], s).
Proof. intros R S O P K. cbn [xstep]. rewrite P. unfold lookupNow. rewrite (run_known _ _ _ _ _ _ _ R S O), K. reflexivity. Qed.
Lemma dest_map d l x : In x (map (mkPub d) l) -> d_dest x = d.
Proof. intros I. apply in_map_iff in I. destruct I as (y & <- & _). reflexivity. Qed.
Lemma part_map d l : map d_part (map (mkPub d) l) = l.
Proof. rewrite map_map. cbn [d_part]. apply map_id. Qed.
(** A request of another executive is answered, to it alone and under the number of its request, with the value of the state, or
    of the state without parameters; when there is none, not at all. *)
Theorem C68_lookup_reply u dup decls h o s ok p rest name args n a s' : xrun (xinit u dup decls) h = Some (o, s) -> statesOk decls h ->
  whole (p :: rest) -> readMsg (p :: rest) = (n, RLookup name args) -> okState (mkState name args) -> nulFree (p_uid p) ->
  xstep (IRecv working ok (p :: rest)) s = Some (a, s') ->
  match reply decls h (mkState name args) with
  | None => a = [] /\ s' = s
  | Some v => sendable v -> exists l m, a = [OPub l] /\ readMsg (map d_part l) = (m, RReturn n [asReceived v]) /\ (forall x, In x l -> d_dest x = p_uid p)
  end.
Proof.
  intros R S W RM O NU X. destruct W as (WC & WV & _). unfold readMsg in RM. destruct (p_what p) eqn:PW; try (exfalso; congruence). assert (n = p_serial p) by congruence. assert (name0 = name) by congruence.
  assert (args = map valOf rest) by (unfold valOf; congruence). subst n name0 args. clear RM.
  assert (E : (a, s') = gotLookup working p name rest s).
  { cbn [xstep] in X. unfold receiveMessages in X. rewrite PW in X. destruct (x_phase s); try discriminate X; try congruence. destruct (needsLookupMutex _ s); [discriminate X|congruence]. }
  clear X. unfold gotLookup in E. rewrite WC, Nat2Z.id, firstn_all in E. rewrite (run_reply _ _ _ _ _ _ _ R S O) in E. destruct (reply _ _ _) as [v|]; [|split; congruence].
  intros SV. destruct (send_ok (x_fac s) (SReturn (p_serial p) (p_uid p) v)) as (cs & E2 & _ & _ & RD); [split; assumption|]. rewrite E2 in E. cbn [leaderDest restDest] in *.
  eexists _, _. split; [assert (a = [OPub (mkPub (p_uid p) (leaderPart (f_uid (x_fac s)) (f_next (x_fac s)) (SReturn (p_serial p) (p_uid p) v)) :: map (mkPub (p_uid p)) (trailers (f_uid (x_fac s)) (f_next (x_fac s)) 0 cs))]) by congruence; eassumption|].
  split; [cbn [map d_part]; rewrite part_map; exact RD|]. intros x [<-|I]; [reflexivity|eapply dest_map, I].
Qed.
(** A lookup of a state that is not its own: the executive asks, waits, and goes on with the value of the first message that
    answers; messages that answer nothing do not disturb it. *)
Lemma lookup_model u dup decls h oh s st : xrun (xinit u dup decls) h = Some (oh, s) -> statesOk decls h -> okState st -> known decls h st = None ->
  quiet s -> callOk (lookupCall st) -> f_next (x_fac s) < ERROR_SERIAL ->
  exists l sA, xstep (XLookup working st) s = Some ([OPub l], sA)
  /\ readMsg (map d_part l) = (f_next (x_fac s), meaning (lookupCall st)) /\ (forall d, hd_error l = Some d -> d_dest d = leaderDest (lookupCall st))
  /\ forall l0 l1 o1 s1, (forall x, In x (l0 ++ l1) -> whole (snd x) /\ answersWith (f_next (x_fac s)) (sentState st) (snd x) = None) ->
     xrun sA (map ircv l0 ++ XStored :: map ircv l1) = Some (o1, s1) ->
     answersOut o1 = [] /\ xstep XWake s1 = None
     /\ forall x v l2 o2 s2, whole (snd x) -> answersWith (f_next (x_fac s)) (sentState st) (snd x) = Some v ->
        (forall y, In y l2 -> whole (snd y) /\ answersWith (f_next (x_fac s)) (sentState st) (snd y) = None) ->
        xrun s1 (map ircv (x :: l2)) = Some (o2, s2) ->
        answersOut o2 = [] /\ (x_phase s2 = Stopped \/ exists s3, xstep XWake s2 = Some ([OAnswer v], s3) /\ quiet s3).
Proof.
  intros R SO O K (P & SEM & LS & LT) CK B. destruct (send_ok (x_fac s) (lookupCall st) CK) as (cs & E2 & _ & _ & RD).
  assert (EL : (match lookupCall st with SMessage _ => 1 | _ => f_next (x_fac s) end) = f_next (x_fac s)) by (unfold lookupCall; destruct (splitColon (s_name st)) as [[]|]; reflexivity). rewrite EL in E2.
  set (n := f_next (x_fac s)) in *. set (lead := mkPub _ _) in E2. set (rst := map (mkPub _) _) in E2.
  eexists (lead :: rst), _. split.
  { cbn [xstep]. rewrite P. unfold lookupNow. rewrite (run_known _ _ _ _ _ _ _ R SO O), K, E2. reflexivity. }
  set (sA := setPhase _ _).
  split; [cbn [map d_part lead]; unfold rst; rewrite part_map; exact RD|]. split; [intros d E; injection E as <-; reflexivity|].
  intros l0 l1 o1 s1 SIL RUN. apply run_app in RUN. destruct RUN as (oa & sB & ob & RA & RB & ->).
  destruct (run_silent n (sentState st) l0 (fun x I => SIL x (in_or_app _ _ _ (or_introl I))) sA oa sB eq_refl (or_intror (ex_intro _ n eq_refl)) RA) as [LA AA].
  destruct LA as (LA1 & LA2 & LA3 & LA4 & LA5). cbn [xrun] in RB. destruct (xstep XStored sB) as [[oc sC]|] eqn:XS; [|discriminate RB]. destruct (xrun sC (map ircv l1)) as [[od sD]|] eqn:RD1; [|discriminate RB].
  assert (s1 = sD) by congruence. assert (ob = oc ++ od) by congruence. subst s1 ob. clear RB.
  destruct LA5 as [LA5|LA5]; [|rewrite stopped_step in XS by exact LA5; discriminate XS]. cbn [xstep] in XS. rewrite LA5 in XS. cbn [sA setPhase x_phase] in XS.
  assert (oc = []) by congruence. assert (EC : sC = setPhase Waiting (setLook (x_sem sB) (x_res sB) (x_lstate sB) n sB)) by congruence. clear XS. subst oc.
  assert (SC : x_sem sC = 0%nat /\ x_lstate sC = sentState st /\ x_lserial sC = n /\ x_phase sC = Waiting).
  { subst sC. cbn [setPhase setLook x_sem x_lstate x_lserial x_phase]. rewrite LA1, LA3. cbn [sA setPhase setLook x_sem x_lstate setFac]. rewrite SEM. auto. }
  destruct SC as (SC1 & SC2 & SC3 & SC4).
  destruct (run_silent n (sentState st) l1 (fun x I => SIL x (in_or_app _ _ _ (or_intror I))) sC od sD SC2 (or_introl SC3) RD1) as [(LD1 & LD2 & LD3 & LD4 & LD5) AD].
  rewrite SC1 in LD1. rewrite SC2 in LD3. rewrite SC3 in LD4. rewrite SC4 in LD5. split; [rewrite !answersOut_app, AA, AD; reflexivity|]. split.
  { cbn [xstep]. destruct LD5 as [-> | ->]; [|reflexivity]. rewrite LD1. reflexivity. }
  intros x v l2 o2 s2 WX AX SIL2 RX. cbn [map xrun] in RX. destruct (xstep (ircv x) sD) as [[oe sE]|] eqn:XE; [|discriminate RX]. destruct (xrun sE (map ircv l2)) as [[og sG]|] eqn:RG; [|discriminate RX].
  assert (s2 = sG) by congruence. assert (o2 = oe ++ og) by congruence. subst s2 o2. clear RX.
  destruct LD5 as [LD5|LD5]; [|rewrite stopped_step in XE by exact LD5; discriminate XE]. unfold ircv in XE. cbn [xstep] in XE. rewrite LD5 in XE.
  rewrite (receive_answer _ _ _ _ v WX) in XE by (rewrite LD3, LD4; exact AX). assert (oe = []) by congruence. assert (EE : sE = setLook (S (x_sem sD)) v (x_lstate sD) (x_lserial sD) sD) by congruence. clear XE. subst oe.
  destruct (run_silent n (sentState st) l2 SIL2 sE og sG) as [(LG1 & LG2 & LG3 & LG4 & LG5) AG]; [subst sE; exact LD3|left; subst sE; exact LD4|exact RG|].
  split; [exact AG|]. rewrite EE in LG1, LG2, LG5. cbn [setLook x_sem x_res x_phase] in LG1, LG2, LG5. destruct LG5 as [LG5|LG5]; [right|left; exact LG5]. rewrite LD5 in LG5.
  cbn [xstep]. rewrite LG5, LG1, LG2, LD1. eexists. split; [reflexivity|]. repeat split.
Qed.
(** The same, said of a state [n0] of the executive [d0], or of everybody. *)
Theorem C68_lookup u dup decls h oh s st d0 n0 : directed (s_name st) d0 n0 -> xrun (xinit u dup decls) h = Some (oh, s) -> statesOk decls h -> okState st -> known decls h st = None ->
  quiet s -> callOk (SLookup n0 d0 (s_params st)) -> f_next (x_fac s) < ERROR_SERIAL ->
  exists l sA, xstep (XLookup working st) s = Some ([OPub l], sA)
  /\ readMsg (map d_part l) = (f_next (x_fac s), meaning (SLookup n0 d0 (s_params st))) /\ (forall d, hd_error l = Some d -> d_dest d = leaderDest (SLookup n0 d0 (s_params st)))
  /\ forall l0 l1 o1 s1, (forall x, In x (l0 ++ l1) -> whole (snd x) /\ answersWith (f_next (x_fac s)) (mkState n0 (s_params st)) (snd x) = None) ->
     xrun sA (map ircv l0 ++ XStored :: map ircv l1) = Some (o1, s1) ->
     answersOut o1 = [] /\ xstep XWake s1 = None
     /\ forall x v l2 o2 s2, whole (snd x) -> answersWith (f_next (x_fac s)) (mkState n0 (s_params st)) (snd x) = Some v ->
        (forall y, In y l2 -> whole (snd y) /\ answersWith (f_next (x_fac s)) (mkState n0 (s_params st)) (snd y) = None) ->
        xrun s1 (map ircv (x :: l2)) = Some (o2, s2) ->
        answersOut o2 = [] /\ (x_phase s2 = Stopped \/ exists s3, xstep XWake s2 = Some ([OAnswer v], s3) /\ quiet s3).
Proof.
  intros D. assert (C : lookupCall st = SLookup n0 d0 (s_params st) /\ sentState st = mkState n0 (s_params st)).
  { unfold lookupCall, sentState. destruct D as [[E N]|(-> & -> & N)].
    - rewrite E, splitColon_app by exact N. split; reflexivity.
    - rewrite splitColon_none by exact N. split; [reflexivity|]. destruct st; reflexivity. }
  destruct C as [C1 C2]. rewrite <- C1, <- C2. apply lookup_model.
Qed.
(** A finished lookup leaves nothing behind: until the next one, no step makes the semaphore count, unless a value is returned for
    request 0. *)
Definition lookupFree (s : xad) : Prop := x_sem s = 0%nat /\ x_lserial s = 0 /\ x_lstate s = noState /\ (forall n, x_phase s <> Asking n) /\ x_phase s <> Waiting.
Lemma builtin_look net c n a s : builtin n -> lookSame s (snd (execute net c n a s)).
Proof.
  intros B. unfold execute.
  assert (RO : forall k, lookSame s (snd (receiveOn k c s))) by (intros k; unfold receiveOn; destruct (addRecipient _ _ _); repeat split; auto).
  repeat (match goal with |- context [streqb n ?x] => let H := fresh "E" in destruct (streqb n x) eqn:H end).
  - unfold doSendMessage. destruct a as [|[] [|]]; try solve [repeat split; auto]. destruct (send _ _ _) as [[o e] f']. destruct e; [destruct (_ =? _)|]; repeat split; auto.
  - unfold doReceiveMessage. destruct a as [|[] [|]]; try solve [repeat split; auto]; apply RO.
  - unfold doReceiveCommand. destruct a as [|[] [|]]; try solve [repeat split; auto]; apply RO.
  - unfold doGetParameter. destruct a as [|[] [|[] [|]]]; try solve [repeat split; auto]; try apply RO. destruct (0 <=? n0); [apply RO|repeat split; auto].
  - unfold doSendReturn. destruct a as [|[] [|? [|]]]; try solve [repeat split; auto]. destruct (parseLabel s0) as [[? ?]|]; [|repeat split; auto]. destruct (send _ _ _) as [[o e] f']. destruct e; [destruct (_ =? _)|]; repeat split; auto.
  - unfold doUpdateLookup. destruct a as [|[] [|? ?]]; try solve [repeat split; auto]. destruct (declared _ _); [|repeat split; auto]. destruct (send _ _ _) as [[o e] f']. destruct e; repeat split; auto.
  - exfalso. destruct B as [<-|[<-|[<-|[<-|[<-|[<-|[]]]]]]]; rewrite streqb_refl in *; discriminate.
Qed.
Theorem C68_lookup_free o s a s' : xstep o s = Some (a, s') -> lookupFree s -> (forall net st, o = XLookup net st -> exists v, a = [OAnswer v]) ->
  (forall net ok ms, o = IRecv net ok ms -> whole ms /\ answersWith 0 noState ms = None) ->
  lookupFree s' /\ (x_phase s' = Idle -> quiet s').
Proof.
  intros X (F1 & F2 & F3 & F4 & F5) NL NR.
  assert (G : lookSame s s' -> lookupFree s' /\ (x_phase s' = Idle -> quiet s')).
  { intros (L1 & _ & L3 & L4 & L5). assert (lookupFree s'); [|split; [assumption|]; destruct H as (A & B & C & _); intros; repeat split; assumption].
    rewrite F1 in L1. rewrite F3 in L3. rewrite F2 in L4. repeat split; try assumption; destruct L5 as [-> | ->]; auto; discriminate. }
  destruct o; destruct (x_phase s) eqn:P; cbn [xstep] in X; rewrite ?P in X; try discriminate X; try (elim (F4 _ eq_refl)); try (elim (F5 eq_refl)).
  - destruct (builtin_dec name) as [B|B]; [apply G; pose proof (builtin_look net c name args s B) as H; assert (E : execute net c name args s = (a, s')) by congruence; rewrite E in H; exact H|].
    rewrite execute_default in X by exact B. unfold doDefault in X. destruct (send _ _ _) as [[o e] f']. destruct e as [z|]; [destruct (z =? ERROR_SERIAL)|].
    + apply G. replace s' with (setPhase Stopped (setFac f' s)) by (unfold stop in X; congruence). repeat split; auto.
    + replace s' with (setPhase (Sending c z) (setFac f' s)) by congruence. split; [repeat split; try assumption; discriminate|discriminate].
    + apply G. replace s' with (setPhase Stopped (setFac f' s)) by (unfold stop in X; congruence). repeat split; auto.
  - replace s' with (setPhase Idle (setPend (pendSet serial c (x_pend s)) s)) by congruence. split; [repeat split; try assumption; discriminate|]. intros _. repeat split; assumption.
  - apply G. replace s' with s by congruence. repeat split; auto.
  - destruct (NL net st eq_refl) as [v ->]. apply G. unfold lookupNow in X. destruct (extFind st (x_ext s)); [replace s' with s by congruence; repeat split; auto|].
    destruct (send _ _ _) as [[o e] f']. destruct e; [congruence|]. unfold stop in X. cbn [app] in X. congruence.
  - apply G. unfold plannerUpdate in X. destruct pairs; [replace s' with s by congruence; repeat split; auto|]. destruct (send _ _ _) as [[o e] f']. destruct e as [z|]; [destruct (_ =? _)|];
      [replace s' with (setPhase Stopped (setFac f' s)) by (unfold stop in X; congruence)|replace s' with (setFac f' s) by congruence|replace s' with (setPhase Stopped (setFac f' s)) by (unfold stop in X; congruence)]; repeat split; auto.
  - destruct (NR _ _ _ eq_refl) as [W A]. apply G. pose proof (receive_look net ok ms s W) as H. rewrite F2, F3 in H. destruct (H A) as [H1 _]. assert (E : receiveMessages net ok ms s = (a, s')) by congruence. rewrite E in H1. exact H1.
  - destruct (NR _ _ _ eq_refl) as [W A]. apply G. pose proof (receive_look net ok ms s W) as H. rewrite F2, F3 in H. destruct (H A) as [H1 _]. assert (E : receiveMessages net ok ms s = (a, s')) by congruence. rewrite E in H1. exact H1.
Qed.

(** Telemetry that does not answer a lookup is reported as a change of the state. *)
Theorem C68_telemetry s net ok ms n name v ps a s' : whole ms -> readMsg ms = (n, RTelemetry name (v :: ps)) -> name <> [] ->
  state_eq (x_lstate s) (mkState name ps) = false -> xstep (IRecv net ok ms) s = Some (a, s') -> a = [OChange (mkState name ps) v; ONotify] /\ s' = s.
Proof.
  intros W RM NN SE X. destruct ms as [|p rest]; [destruct W|]. destruct W as (WC & _ & _). unfold readMsg in RM. destruct (p_what p) eqn:PW; try (exfalso; congruence).
  assert (E : (a, s') = gotTelemetry p name0 rest s).
  { cbn [xstep] in X. unfold receiveMessages in X. rewrite PW in X. destruct (x_phase s); try discriminate X; try congruence. destruct (needsLookupMutex _ s); [discriminate X|congruence]. }
  destruct rest as [|q r]; [discriminate RM|]. cbn [map] in RM. assert (name0 = name) by congruence. assert (v = valOf q) by (unfold valOf; congruence). assert (ps = map valOf r) by (unfold valOf; congruence). subst name0 v ps.
  unfold gotTelemetry in E. destruct name as [|c0 name]; [congruence|]. destruct (Z.eqb_spec (p_count p) 0) as [Q|_]; [rewrite WC in Q; cbn [length] in Q; lia|].
  destruct (Z.eqb_spec (p_count p + 1) (Z.of_nat (length (p :: q :: r)))) as [_|Q]; [|elim Q; rewrite WC; cbn [length]; lia]. rewrite SE in E. split; congruence.
Qed.
(** UpdateLookup of a declared state reports the change here, publishes it to the others and succeeds; of another state it fails and
    does nothing. *)
Theorem C68_update_lookup u dup decls h o s c n v ps : xrun (xinit u dup decls) h = Some (o, s) -> x_phase s = Idle ->
  (In n (map fst decls) -> callOk (STelemetry n (v :: ps)) -> f_next (x_fac s) <> ERROR_SERIAL ->
   exists l s', xstep (XExec working c (chars "UpdateLookup") (VStr n :: v :: ps)) s = Some ([OChange (mkState n ps) v; OPub l; OAck c Success; ONotify], s')
     /\ readMsg (map d_part l) = (f_next (x_fac s), RTelemetry n (map asReceived (v :: ps))))
  /\ (~ In n (map fst decls) -> forall net, xstep (XExec net c (chars "UpdateLookup") (VStr n :: v :: ps)) s = Some ([OAck c Failed; ONotify], s)).
Proof.
  intros R P. destruct (run_ext _ _ _ _ R) as [_ NM]. assert (D : declared n (x_names s) = declared n (map fst decls)).
  { rewrite NM. unfold xinit. pose proof (declare_spec decls [] [] [] ltac:(tauto)) as DS. destruct (declare decls [] []) as [names ext]. cbn [x_names]. apply declared_ext. intros x. rewrite (proj1 DS). cbn [In]. tauto. }
  split.
  - intros I CK NE. apply declared_in in I. rewrite <- D in I. destruct (send_ok (x_fac s) _ CK) as (cs & E2 & _ & _ & RD). cbn [xstep]. rewrite P.
    change (execute working c (chars "UpdateLookup") (VStr n :: v :: ps) s) with (doUpdateLookup working c (VStr n :: v :: ps) s). unfold doUpdateLookup. rewrite I. cbn [setExt x_fac]. rewrite E2.
    destruct (Z.eqb_spec (f_next (x_fac s)) ERROR_SERIAL); [contradiction|]. eexists _, _. split; [reflexivity|]. cbn [map d_part]. rewrite part_map. exact RD.
  - intros NI net. cbn [xstep]. rewrite P. change (execute net c (chars "UpdateLookup") (VStr n :: v :: ps) s) with (doUpdateLookup net c (VStr n :: v :: ps) s). unfold doUpdateLookup.
    rewrite D. destruct (declared n (map fst decls)) eqn:E; [|reflexivity]. apply declared_in in E. contradiction.
Qed.
(** Updates are published and acknowledged; aborts are acknowledged. *)
Theorem C68_update s node x pairs : x_phase s = Idle -> callOk (SUpdate node (x :: pairs)) -> f_next (x_fac s) <> ERROR_SERIAL ->
  (exists l s', xstep (XUpdate working node (x :: pairs)) s = Some ([OPub l; OUpdateAck; ONotify], s') /\ readMsg (map d_part l) = (f_next (x_fac s), RUpdate node (x :: pairs)))
  /\ forall c, xstep (XAbort c) s = Some ([OAbortAck c; ONotify], s).
Proof.
  intros P CK NE. destruct (send_ok (x_fac s) _ CK) as (cs & E2 & _ & _ & RD). cbn [xstep]. rewrite P. split; [|reflexivity]. unfold plannerUpdate. rewrite E2.
  destruct (Z.eqb_spec (f_next (x_fac s)) ERROR_SERIAL); [contradiction|]. eexists _, _. split; [reflexivity|]. cbn [map d_part]. rewrite part_map. exact RD.
Qed.

(** ** There and back *)
Lemma trailers_count uid s cs : forall i, 0 <= i -> i + Z.of_nat (length cs) < 65536 -> forall q, In q (trailers uid s i cs) -> p_count q < i + Z.of_nat (length cs).
Proof.
  induction cs as [|c cs IH]; intros i I L q; cbn [trailers length]; [intros []|]. cbn [length] in L. intros [<-|H].
  - cbn [p_count]. rewrite u16_small by lia. lia.
  - specialize (IH (i + 1) ltac:(lia) ltac:(lia) q H). lia.
Qed.
Lemma leaderCount_range k : 0 <= leaderCount k < 65536.
Proof. destruct k; cbn [leaderCount]; try lia; unfold u16; apply Z.mod_pos_bound; lia. Qed.
(** Every message sent arrives as the theorems above want it. *)
Theorem C68_whole f k : callOk k -> whole (map d_part (fst (fst (send f working k)))) /\ readMsg (map d_part (fst (fst (send f working k)))) = (f_next f, meaning k).
Proof.
  intros O. destruct (send_ok f k O) as (cs & E & G & L & R). rewrite E. cbn [fst map d_part]. rewrite part_map. split; [|exact R].
  unfold whole. cbn [leaderPart p_count p_what]. rewrite trailers_length. split; [auto|]. split.
  - intros q I. destruct (trailers_in _ _ _ _ _ I G) as (_ & V & _ & _). split; [exact V|]. pose proof (leaderCount_range k) as LR. pose proof (trailers_count _ _ cs 0 ltac:(lia) ltac:(lia) q I). lia.
  - destruct k; cbn [leaderOf leaderCount] in *; auto; [destruct cs; [reflexivity|discriminate L]|lia].
Qed.
Lemma trace_next l : forall s t s', xtrace s l = Some (t, s') -> inv s -> nextOf s + Z.of_nat (length l) < ERROR_SERIAL -> nextOf s' <= nextOf s + Z.of_nat (length l).
Proof.
  induction l as [|o l IH]; intros s t s'; cbn [xtrace length].
  - intros E V B. assert (s' = s) by congruence. subst. lia.
  - destruct (xstep o s) as [[a s1]|] eqn:X; [|discriminate]. destruct (xtrace s1 l) as [[b s2]|] eqn:Y; [|discriminate]. intros E V B. assert (s' = s2) by congruence. subst s'.
    destruct (step_inv _ _ _ _ X V ltac:(lia)) as (V1 & N1 & _). pose proof (IH s1 b s2 Y V1 ltac:(lia)). lia.
Qed.
Lemma trace_app l1 : forall l2 s t s1 t2 s2, xtrace s l1 = Some (t, s1) -> xtrace s1 l2 = Some (t2, s2) -> xtrace s (l1 ++ l2) = Some (t ++ t2, s2).
Proof.
  induction l1 as [|o l1 IH]; intros l2 s t s1 t2 s2; cbn [xtrace app].
  - intros E. assert (t = []) by congruence. assert (s1 = s) by congruence. subst. auto.
  - destruct (xstep o s) as [[a sa]|]; [|discriminate]. destruct (xtrace sa l1) as [[b sb]|] eqn:Y; [|discriminate]. intros E F. assert (s1 = sb) by congruence. assert (t = (o, a) :: b) by congruence. subst.
    rewrite (IH _ _ _ _ _ _ Y F). reflexivity.
Qed.
(** The name of the executive does not change. *)
Definition sameUid (s s' : xad) : Prop := f_uid (x_fac s') = f_uid (x_fac s).
Lemma uid_offerParams label vs : forall i s, sameUid s (snd (offerParams label i vs s)).
Proof.
  induction vs as [|v vs IH]; intros i s; cbn [offerParams]; [reflexivity|]. unfold offer. destruct (addMessage (x_q s) (paramKey label i) v) as [r q]. specialize (IH (S i) (setQ q s)).
  destruct (offerParams label (S i) vs (setQ q s)). exact IH.
Qed.
Ltac uid_send := match goal with |- context [send ?f ?n ?k] => let H := fresh "SF" in destruct (send f n k) as [[?o ?e] ?f'] eqn:H; apply send_facts in H; destruct H as (-> & _) end.
Lemma uid_step o s a s' : xstep o s = Some (a, s') -> sameUid s s'.
Proof.
  assert (EX : forall net c n ar, sameUid s (snd (execute net c n ar s))).
  { intros net c n ar. assert (RO : forall k, sameUid s (snd (receiveOn k c s))) by (intros k; unfold receiveOn; destruct (addRecipient _ _ _); reflexivity). unfold execute.
    repeat (match goal with |- context [streqb n ?x] => let H := fresh "E" in destruct (streqb n x) eqn:H end).
    - unfold doSendMessage. destruct ar as [|[] [|]]; try reflexivity. uid_send. destruct e; [destruct (_ =? _)|]; reflexivity.
    - unfold doReceiveMessage. destruct ar as [|[] [|]]; try reflexivity; apply RO.
    - unfold doReceiveCommand. destruct ar as [|[] [|]]; try reflexivity; apply RO.
    - unfold doGetParameter. destruct ar as [|[] [|[] [|]]]; try reflexivity; try apply RO. destruct (0 <=? n0); [apply RO|reflexivity].
    - unfold doSendReturn. destruct ar as [|[] [|? [|]]]; try reflexivity. destruct (parseLabel s0) as [[? ?]|]; [|reflexivity]. uid_send. destruct e; [destruct (_ =? _)|]; reflexivity.
    - unfold doUpdateLookup. destruct ar as [|[] [|? ?]]; try reflexivity. destruct (declared _ _); [|reflexivity]. uid_send. destruct e; reflexivity.
    - unfold doDefault. uid_send. destruct e; [destruct (_ =? _)|]; reflexivity. }
  assert (RC : forall net ok ms, sameUid s (snd (receiveMessages net ok ms s))).
  { intros net ok [|p r]; [reflexivity|]. unfold receiveMessages. destruct (p_what p); try reflexivity.
    - unfold gotCommand, offer. destruct (addMessage _ _ _) as [x q]. pose proof (uid_offerParams (cmdLabel (p_serial p) (p_uid p)) (map valOf r) 0 (setQ q s)) as H. destruct (offerParams _ _ _ (setQ q s)). exact H.
    - unfold offer. destruct (addMessage _ _ _). reflexivity.
    - unfold gotLookup. destruct (lookupReply _ _); [|reflexivity]. uid_send. destruct e; reflexivity.
    - unfold gotTelemetry. destruct name; [reflexivity|]. destruct r; [reflexivity|]. destruct (p_count p =? 0); [reflexivity|]. destruct (_ =? _); [|reflexivity]. destruct (state_eq _ _); reflexivity.
    - unfold gotReturn. destruct (_ =? _); [destruct r; [reflexivity|]; destruct (_ =? _); reflexivity|]. destruct (pendFind _ _); [|reflexivity]. destruct r; [reflexivity|]. destruct (_ =? _); [|reflexivity].
      destruct (_ =? _); [|reflexivity]. destruct (valOf _); reflexivity.
    - unfold gotPlanText. destruct ok; [|reflexivity]. destruct (_ =? _); reflexivity.
    - unfold gotPlanFile. destruct ok; [|reflexivity]. destruct (_ =? _); reflexivity.
    - unfold gotPlanText. destruct ok; [|reflexivity]. destruct (_ =? _); reflexivity.
    - unfold gotPlanFile. destruct ok; [|reflexivity]. destruct (_ =? _); reflexivity. }
  destruct o; destruct (x_phase s) eqn:P; cbn [xstep]; rewrite ?P; try discriminate; intros X.
  - specialize (EX net c name args). assert (E : execute net c name args s = (a, s')) by congruence. rewrite E in EX. exact EX.
  - replace s' with (setPhase Idle (setPend (pendSet serial c (x_pend s)) s)) by congruence. reflexivity.
  - replace s' with s by congruence. reflexivity.
  - assert (E : lookupNow net st s = (a, s')) by congruence. revert E. unfold lookupNow. destruct (extFind st (x_ext s)); [intros; replace s' with s by congruence; reflexivity|]. uid_send. intros E. assert (H : s' = snd (a, s')) by reflexivity. rewrite H, <- E. destruct e; reflexivity.
  - replace s' with (setPhase Waiting (setLook (x_sem s) (x_res s) (x_lstate s) serial s)) by congruence. reflexivity.
  - destruct (x_sem s); [discriminate|]. replace s' with (setPhase Idle (setLook n unk noState 0 s)) by congruence. reflexivity.
  - assert (E : plannerUpdate net node pairs s = (a, s')) by congruence. revert E. unfold plannerUpdate. destruct pairs; [intros; replace s' with s by congruence; reflexivity|]. uid_send. intros E. assert (H : s' = snd (a, s')) by reflexivity. rewrite H, <- E. destruct e; [destruct (_ =? _)|]; reflexivity.
  - specialize (RC net ok ms). assert (E : receiveMessages net ok ms s = (a, s')) by congruence. rewrite E in RC. exact RC.
  - specialize (RC net ok ms). assert (E : receiveMessages net ok ms s = (a, s')) by congruence. rewrite E in RC. exact RC.
  - destruct (needsLookupMutex ms s); [discriminate|]. specialize (RC net ok ms). assert (E : receiveMessages net ok ms s = (a, s')) by congruence. rewrite E in RC. exact RC.
  - specialize (RC net ok ms). assert (E : receiveMessages net ok ms s = (a, s')) by congruence. rewrite E in RC. exact RC.
Qed.
Lemma uid_trace l : forall s t s', xtrace s l = Some (t, s') -> sameUid s s'.
Proof.
  induction l as [|o l IH]; intros s t s'; cbn [xtrace].
  - intros E. assert (s' = s) by congruence. subst. reflexivity.
  - destruct (xstep o s) as [[a s1]|] eqn:X; [|discriminate]. destruct (xtrace s1 l) as [[b s2]|] eqn:Y; [|discriminate]. intros E. assert (s' = s2) by congruence. subst. unfold sameUid in *. rewrite (IH _ _ _ Y). apply (uid_step _ _ _ _ X).
Qed.
(** A command sent to another executive is received there under a label; a value returned there with this label, whenever it
    comes, becomes the value of the command here. *)
Lemma round_trip_model u dup decls h t s c name args : xtrace (xinit u dup decls) h = Some (t, s) -> Z.of_nat (length h) + 1 < ERROR_SERIAL ->
  x_phase s = Idle -> nulFree u -> ~ builtin name -> callOk (remoteCall name args) ->
  exists l n s1, xstep (XExec working c name args) s = Some ([OPub l], s1)
  /\ (forall d, hd_error l = Some d -> d_dest d = leaderDest (remoteCall name args))
  /\ (forall net ok, exists name', received [IRecv net ok (map d_part l)] = [(n, u, name', map asReceived args)] /\ RCommand name' (map asReceived args) = meaning (remoteCall name args))
  /\ forall sB cB v, x_phase sB = Idle -> f_next (x_fac sB) <> ERROR_SERIAL -> sendable v ->
     exists l2 sB', xstep (XExec working cB (chars "SendReturnValue") [VStr (cmdLabel n u); v]) sB = Some ([OPub l2; OAck cB Success; ONotify], sB')
     /\ (forall x, In x l2 -> d_dest x = u)
     /\ forall h1 t1 s2 net ok a2 s3, xtrace s1 (XRecord :: h1) = Some (t1, s2) -> Z.of_nat (length h) + Z.of_nat (length h1) + 3 < ERROR_SERIAL ->
          xstep (IRecv net ok (map d_part l2)) s2 = Some (a2, s3) -> a2 = [OReturn c (asReceived v); ONotify].
Proof.
  intros T B P NU NB CK. destruct (inv_init u dup decls) as (I0 & N0 & P0 & (Q0 & _) & _). destruct (trace_inv _ _ _ _ T I0 ltac:(rewrite N0; lia)) as [V _].
  pose proof (trace_next _ _ _ _ T I0 ltac:(rewrite N0; lia)) as NX. rewrite N0 in NX. assert (UE : f_uid (x_fac s) = u).
  { pose proof (uid_trace _ _ _ _ T) as H. unfold sameUid in H. rewrite H. unfold xinit. destruct (declare decls [] []). reflexivity. }
  set (n := f_next (x_fac s)). assert (NR : 1 <= n < ERROR_SERIAL) by (destruct V as (V1 & _); unfold nextOf in *; fold n in V1, NX; lia).
  destruct (send_ok (x_fac s) (remoteCall name args) CK) as (cs & E2 & _ & _ & RD). fold n in E2, RD. rewrite UE in E2, RD.
  assert (EL : (match remoteCall name args with SMessage _ => 1 | _ => n end) = n) by (unfold remoteCall; destruct (splitColon name) as [[]|]; reflexivity). rewrite EL in E2.
  set (lead := mkPub _ _) in E2. set (rst := map (mkPub _) _) in E2.
  set (f' := {| f_uid := u; f_next := u32 (n + 1) |}) in E2.
  assert (X1 : xstep (XExec working c name args) s = Some ([OPub (lead :: rst)], setPhase (Sending c n) (setFac f' s))).
  { cbn [xstep]. rewrite P, execute_default by exact NB. unfold doDefault. rewrite E2. destruct (Z.eqb_spec n ERROR_SERIAL); [lia|reflexivity]. }
  exists (lead :: rst), n, (setPhase (Sending c n) (setFac f' s)). split; [exact X1|].
  split; [intros d E; injection E as <-; reflexivity|]. split.
  { intros net ok. unfold received, messages. cbn [flat_map app]. rewrite app_nil_r. cbn [map d_part lead]. unfold rst. rewrite part_map, RD. cbn [leaderPart p_uid]. rewrite cstr_nulFree by exact NU.
    unfold remoteCall. destruct (splitColon name) as [[d m]|]; cbn [meaning]; eexists; split; reflexivity. }
  intros sB cB v PB NBE SV. destruct (send_ok (x_fac sB) (SReturn n u v)) as (cs2 & E3 & _ & _ & RD3); [split; assumption|].
  set (m := f_next (x_fac sB)) in *. set (lead2 := mkPub _ _) in E3. set (rst2 := map (mkPub _) _) in E3.
  eexists (lead2 :: rst2), _. split.
  { cbn [xstep]. rewrite PB. unfold execute. change (streqb (chars "SendReturnValue") (chars "SendMessage")) with false. change (streqb (chars "SendReturnValue") (chars "ReceiveMessage")) with false.
    change (streqb (chars "SendReturnValue") (chars "ReceiveCommand")) with false. change (streqb (chars "SendReturnValue") (chars "GetParameter")) with false. rewrite streqb_refl. cbv iota. unfold doSendReturn.
    rewrite label_parse by (unfold ERROR_SERIAL in NR; lia). rewrite E3. destruct (Z.eqb_spec m ERROR_SERIAL); [contradiction|]. reflexivity. }
  split; [intros x [<-|I]; [reflexivity|]; unfold rst2 in I; apply dest_map in I; exact I|].
  intros h1 t1 s2 net ok a2 s3 T1 B1 X2.
  assert (TT : xtrace (xinit u dup decls) (h ++ XExec working c name args :: XRecord :: h1) = Some (t ++ (XExec working c name args, [OPub (lead :: rst)]) :: t1, s2)).
  { eapply trace_app; [exact T|]. cbn [xtrace]. rewrite X1. cbn [xtrace] in T1. rewrite T1. reflexivity. }
  assert (LB : Z.of_nat (length (h ++ XExec working c name args :: XRecord :: h1)) + 1 < ERROR_SERIAL) by (rewrite app_length; cbn [length]; lia).
  assert (CW : callOk (SReturn n u v)) by (split; assumption). pose proof (C68_whole (x_fac sB) _ CW) as [WH WR]. rewrite E3 in WH, WR. cbn [fst] in WH, WR.
  destruct (C68_return _ _ _ _ _ _ _ _ _ _ _ _ _ _ TT LB WH WR X2) as [RET _]. apply RET.
  (* the command is recorded *)
  destruct (step_inv _ _ _ _ X1 V ltac:(unfold nextOf; fold n; lia)) as (V1 & N1 & P1 & L1). unfold nextOf in N1. cbn [setPhase setFac x_fac] in N1.
  destruct (trace_inv _ _ _ _ TT I0) as [_ PD]; [rewrite N0; lia|]. rewrite P0 in PD. unfold lastSent in PD. rewrite Q0 in PD. cbn [app] in PD. rewrite <- PD.
  cbn [xtrace xstep setPhase x_phase] in T1. match type of T1 with context [xtrace ?x h1] => set (sR := x) in T1 end. destruct (xtrace sR h1) as [[t2 s2']|] eqn:T2; [|discriminate T1]. assert (s2' = s2) by congruence. subst s2'.
  assert (XR : xstep XRecord (setPhase (Sending c n) (setFac f' s)) = Some ([OAck c SentToSystem; ONotify], sR)) by reflexivity.
  destruct (step_inv _ _ _ _ XR V1 ltac:(unfold nextOf in *; cbn [setPhase setFac x_fac]; fold n in N1; lia)) as (V2 & N2 & P2 & _).
  destruct (trace_inv _ _ _ _ T2 V2) as [_ PF]; [unfold nextOf in *; cbn [setPhase setFac x_fac] in *; fold n in N1, NX; lia|].
  rewrite PF, P2. cbn [sent1 lastSent setPhase x_phase]. apply in_or_app. left. apply in_or_app. right. left. reflexivity.
Qed.
(** The same, said of a command [n0] for the executive [d0], or for everybody. *)
Theorem C68_round_trip u dup decls h t s c name args d0 n0 : directed name d0 n0 -> xtrace (xinit u dup decls) h = Some (t, s) -> Z.of_nat (length h) + 1 < ERROR_SERIAL ->
  x_phase s = Idle -> nulFree u -> ~ builtin name -> callOk (SCommand n0 d0 args) ->
  exists l n s1, xstep (XExec working c name args) s = Some ([OPub l], s1)
  /\ (forall d, hd_error l = Some d -> d_dest d = d0)
  /\ (forall net ok, received [IRecv net ok (map d_part l)] = [(n, u, n0, map asReceived args)])
  /\ forall sB cB v, x_phase sB = Idle -> f_next (x_fac sB) <> ERROR_SERIAL -> sendable v ->
     exists l2 sB', xstep (XExec working cB (chars "SendReturnValue") [VStr (cmdLabel n u); v]) sB = Some ([OPub l2; OAck cB Success; ONotify], sB')
     /\ (forall x, In x l2 -> d_dest x = u)
     /\ forall h1 t1 s2 net ok a2 s3, xtrace s1 (XRecord :: h1) = Some (t1, s2) -> Z.of_nat (length h) + Z.of_nat (length h1) + 3 < ERROR_SERIAL ->
          xstep (IRecv net ok (map d_part l2)) s2 = Some (a2, s3) -> a2 = [OReturn c (asReceived v); ONotify].
Proof.
  intros D. assert (C : remoteCall name args = SCommand n0 d0 args).
  { unfold remoteCall. destruct D as [[E N]|(-> & -> & N)].
    - rewrite E, splitColon_app by exact N. reflexivity.
    - rewrite splitColon_none by exact N. reflexivity. }
  intros T B P NU NB CK. rewrite <- C in CK. destruct (round_trip_model u dup decls h t s c name args T B P NU NB CK) as (l & n & s1 & A1 & A2 & A3 & A4).
  exists l, n, s1. rewrite C in A2, A3. split; [exact A1|]. split; [exact A2|]. split; [|exact A4].
  intros net ok. destruct (A3 net ok) as (nm & A5 & A6). rewrite A5. cbn [meaning] in A6. congruence.
Qed.

(** ** What goes wrong *)
Definition retMsg (u : str) (n request : Z) (to : str) (c : content) : list part :=
  [{| p_what := KReturn request to; p_count := 1; p_serial := n; p_uid := u |}; {| p_what := c; p_count := 0; p_serial := n; p_uid := u |}].
Definition telMsg (u : str) (n : Z) (name : str) (c : content) : list part :=
  [{| p_what := KTelemetry name; p_count := 1; p_serial := n; p_uid := u |}; {| p_what := c; p_count := 0; p_serial := n; p_uid := u |}].
(** A plan announced as a file is added as a library, never as a plan. *)
Theorem C68_plan_file_refuted s net f n u : x_phase s = Idle ->
  xstep (IRecv net true [{| p_what := KAddPlanFile f; p_count := 0; p_serial := n; p_uid := u |}]) s = Some ([OAddLibrary f], s).
Proof. intros P. cbn [xstep]. rewrite P. reflexivity. Qed.
(** A value returned before the command's number is noted is lost. *)
Theorem C68_early_return_refuted s net ok w n u c m k : x_phase s = Sending c n -> x_lserial s <> n -> ~ In n (map fst (x_pend s)) ->
  xstep (IRecv net ok (retMsg w m n u k)) s = Some ([], s).
Proof.
  intros P L NI. cbn [xstep]. rewrite P. unfold receiveMessages, retMsg, gotReturn. cbn [p_what p_count]. destruct (Z.eqb_spec n (x_lserial s)); [congruence|].
  assert (F : pendFind n (x_pend s) = None); [|rewrite F; reflexivity]. clear - NI. induction (x_pend s) as [|[a b] l IH]; [reflexivity|]. cbn in *. destruct (Z.eqb_spec n a); [subst; elim NI; auto|]. apply IH. auto.
Qed.
(** An answer to a lookup that comes before the lookup's number is noted is lost, and the executive waits forever if no other comes. *)
Theorem C68_early_answer_refuted s net ok w m n u k : x_phase s = Asking n -> x_sem s = 0%nat -> x_lserial s = 0 -> n <> 0 -> ~ In n (map fst (x_pend s)) ->
  exists s1, xrun s [IRecv net ok (retMsg w m n u k); XStored] = Some ([], s1)
  /\ forall l o s2, (forall x, In x l -> whole (snd x) /\ answersWith n (x_lstate s) (snd x) = None) -> xrun s1 (map ircv l) = Some (o, s2) -> answersOut o = [] /\ xstep XWake s2 = None.
Proof.
  intros P SM L NZ NI. set (s1 := setPhase Waiting (setLook (x_sem s) (x_res s) (x_lstate s) n s)). exists s1. split.
  - cbn [xrun xstep]. rewrite P. unfold needsLookupMutex, retMsg. cbn [p_what]. rewrite L. destruct (Z.eqb_spec n 0); [contradiction|]. unfold receiveMessages, gotReturn. cbn [p_what p_count]. rewrite L. destruct (Z.eqb_spec n 0); [contradiction|].
    assert (F : pendFind n (x_pend s) = None). { clear - NI. induction (x_pend s) as [|[a b] l IH]; [reflexivity|]. cbn in *. destruct (Z.eqb_spec n a); [subst; elim NI; auto|]. apply IH. auto. }
    rewrite F. rewrite P. reflexivity.
  - intros l o s2 SIL R. destruct (run_silent n (x_lstate s) l SIL s1 o s2 eq_refl (or_introl eq_refl) R) as [(L1 & _ & _ & _ & L5) A]. split; [exact A|]. cbn [xstep].
    destruct L5 as [-> | ->]; [|reflexivity]. cbn [s1 setPhase x_phase]. rewrite L1. cbn [s1 setPhase setLook x_sem]. rewrite SM. reflexivity.
Qed.
(** Two answers: the lookup returns the second, and the next lookup returns "unknown" without waiting. *)
Theorem C68_two_answers_refuted s u1 u2 m1 m2 u a b st net : x_phase s = Waiting -> x_sem s = 0%nat ->
  extFind st (x_ext s) = None -> callOk (lookupCall st) ->
  exists o s1, xrun s [IRecv net true (retMsg u1 m1 (x_lserial s) u (KInt a)); IRecv net true (retMsg u2 m2 (x_lserial s) u (KInt b)); XWake; XLookup working st; XStored; XWake] = Some (o, s1)
  /\ answersOut o = [VInt b; unk].
Proof.
  intros P SM F CK. destruct (send_ok (x_fac s) (lookupCall st) CK) as (cs & E2 & _).
  cbn [xrun xstep]. rewrite P. unfold receiveMessages, retMsg, gotReturn. cbn [p_what p_count]. rewrite Z.eqb_refl. cbn [Z.eqb Pos.eqb]. cbn [setLook x_phase x_lserial]. rewrite P, Z.eqb_refl. cbn [setLook x_phase x_sem]. rewrite P. unfold setLook at 1. cbn [x_sem].
  rewrite SM. cbn [setPhase x_phase]. unfold lookupNow. cbn [setPhase setLook x_ext x_fac]. rewrite F, E2. cbn [setPhase setLook x_phase x_sem x_res]. eexists _, _. split; [reflexivity|]. reflexivity.
Qed.
(** A value returned under a label that does not begin with a number reaches request 0, which is that of no lookup: the next
    lookup of whoever hears it returns "unknown" without waiting. *)
Theorem C68_request_zero_refuted s w m u a st net : quiet s -> extFind st (x_ext s) = None -> callOk (lookupCall st) ->
  parseLabel (chars "home:" ++ u) = Some (0, u)
  /\ exists o s1, xrun s [IRecv net true (retMsg w m 0 u (KInt a)); XLookup working st; XStored; XWake] = Some (o, s1) /\ answersOut o = [unk].
Proof.
  intros (P & SM & L & _) F CK. split; [reflexivity|]. destruct (send_ok (x_fac s) (lookupCall st) CK) as (cs & E2 & _).
  cbn [xrun xstep]. rewrite P. unfold receiveMessages, retMsg, gotReturn. cbn [p_what p_count]. rewrite L. cbn [Z.eqb Pos.eqb]. cbn [setLook x_phase x_lserial]. rewrite P, SM. unfold lookupNow. cbn [setPhase setLook x_ext x_fac]. rewrite F, E2.
  cbn [setPhase setLook x_phase x_sem x_res]. eexists _, _. split; [reflexivity|]. reflexivity.
Qed.
(** A lookup directed to one executive is answered by the telemetry of any other. *)
Theorem C68_directed_lookup_refuted u dup w a :
  exists o s, xrun (xinit u dup []) [XLookup working (mkState (chars "bob:x") []); XStored; IRecv working true (telMsg w 1 (chars "x") (KInt a)); XWake] = Some (o, s) /\ answersOut o = [VInt a].
Proof. eexists _, _. split; [vm_compute; reflexivity|]. reflexivity. Qed.
(** Telemetry taken for the answer of a lookup is not reported as a change. *)
Theorem C68_telemetry_taken_refuted u dup w a :
  exists o s, xrun (xinit u dup []) [XLookup working (mkState (chars "x") []); XStored; IRecv working true (telMsg w 1 (chars "x") (KInt a)); XWake] = Some (o, s) /\ answersOut o = [VInt a]
  /\ forall st v, ~ In (OChange st v) o.
Proof. eexists _, _. split; [vm_compute; reflexivity|]. split; [reflexivity|]. intros st v I. cbn [In] in I. intuition discriminate. Qed.
(** A message with the name of a command's queue is received as a command. *)
Theorem C68_name_clash_refuted u dup n w c :
  exists o s, xrun (xinit u dup []) [XExec working c (chars "ReceiveCommand") [VStr (chars "go")]; IRecv working true [{| p_what := KMessage (commandKey (chars "go")); p_count := 0; p_serial := n; p_uid := w |}]] = Some (o, s)
  /\ retsOf (commandKey (chars "go")) (queueReturns o) = [(c, VStr (commandKey (chars "go")))].
Proof. destruct dup; eexists _, _; (split; [vm_compute; reflexivity|]; reflexivity). Qed.
(** An update without values is never acknowledged. *)
Theorem C68_empty_update_refuted s net node : x_phase s = Idle -> xstep (XUpdate net node []) s = Some ([], s).
Proof. intros P. cbn [xstep]. rewrite P. reflexivity. Qed.
(** A message that could not be sent is reported as sent. *)
Theorem C68_send_failure_refuted s net c m : x_phase s = Idle -> net 0%nat = false ->
  exists s', xstep (XExec net c (chars "SendMessage") [VStr m]) s = Some ([OPub []; OAck c Success; ONotify], s').
Proof. intros P N. cbn [xstep]. rewrite P. unfold execute. rewrite streqb_refl. cbn. unfold send, publish. cbn. rewrite N. eexists. reflexivity. Qed.
(** A lookup that could not be sent waits all the same. *)
Theorem C68_lookup_failure_refuted s net st : quiet s -> extFind st (x_ext s) = None -> net 0%nat = false ->
  exists s1, xrun s [XLookup net st; XStored] = Some ([OPub []], s1) /\ xstep XWake s1 = None /\ x_lserial s1 = ERROR_SERIAL /\ x_phase s1 = Waiting.
Proof.
  intros (P & SM & _) F N. cbn [xrun xstep]. rewrite P. unfold lookupNow. rewrite F. unfold send. cbn zeta. unfold publish. cbn [d_part p_what].
  destruct (format (leaderOf (lookupCall st))) eqn:FM; [|destruct (leader_format _ FM)]. rewrite N. assert (R : result (lookupCall st) (f_next (x_fac s)) (Some false) = Gives ERROR_SERIAL) by (unfold lookupCall; destruct (splitColon _) as [[]|]; reflexivity).
  rewrite R. cbn [setPhase x_phase]. eexists. split; [reflexivity|]. cbn [xstep setPhase setLook x_phase x_sem x_lserial]. rewrite SM. auto.
Qed.
(** With the default settings, a second command replaces the first when nobody has received it. *)
Theorem C68_default_loses_refuted u w c :
  let cm n := IRecv working true [{| p_what := KCommand (chars "go"); p_count := 0; p_serial := n; p_uid := w |}] in
  exists o s, xrun (xinit u false []) [cm 1; cm 2; XExec working c (chars "ReceiveCommand") [VStr (chars "go")]; XExec working (S c) (chars "ReceiveCommand") [VStr (chars "go")]] = Some (o, s)
  /\ retsOf (commandKey (chars "go")) (queueReturns o) = [(c, VStr (cmdLabel 2 w))].
Proof. eexists _, _. split; [vm_compute; reflexivity|]. reflexivity. Qed.
(** A label without a colon, or an index below zero, ends the program. *)
Theorem C68_bad_argument_refuted s net c v l i : x_phase s = Idle -> ~ In 58 l -> i < 0 ->
  xstep (XExec net c (chars "SendReturnValue") [VStr l; v]) s = Some ([OThrow], setPhase Stopped s)
  /\ xstep (XExec net c (chars "GetParameter") [VStr l; VInt i]) s = Some ([OThrow], setPhase Stopped s).
Proof.
  intros P NC I. cbn [xstep]. rewrite P. split.
  - change (execute net c (chars "SendReturnValue") [VStr l; v] s) with (doSendReturn net c [VStr l; v] s). unfold doSendReturn, parseLabel, splitLabel. destruct l as [|x l]; [reflexivity|]. rewrite splitColon_none; [reflexivity|]. intros X. apply NC. right. exact X.
  - change (execute net c (chars "GetParameter") [VStr l; VInt i] s) with (doGetParameter c [VStr l; VInt i] s). unfold doGetParameter. destruct (Z.leb_spec 0 i); [lia|reflexivity].
Qed.

(** ** A history *)
Definition exU : str := chars "alice".
Definition exW : str := chars "bob".
Definition exDecls : list (str * val) := [(chars "temp", VInt 20); (chars "temp", VInt 30)].
Definition exCmd : list part :=
  [{| p_what := KCommand (chars "go"); p_count := 2; p_serial := 4294967290; p_uid := exW |}; {| p_what := KInt 7; p_count := 0; p_serial := 4294967290; p_uid := exW |};
   {| p_what := KStr (chars "x"); p_count := 1; p_serial := 4294967290; p_uid := exW |}].
Definition exH : list xop :=
  [XExec working 1%nat (chars "ReceiveCommand") [VStr (chars "go")]; IRecv working true exCmd;
   XExec working 2%nat (chars "GetParameter") [VStr (cmdLabel 4294967290 exW); VInt 1];
   XExec working 3%nat (chars "UpdateLookup") [VStr (chars "temp"); VInt 25];
   XExec working 4%nat (chars "bob:stop") [VBool true]; XRecord; IRecv working true (retMsg exW 9 2 exU (KInt 5))].
Theorem C68_example :
  exists o s t, xrun (xinit exU true exDecls) exH = Some (o, s) /\ xtrace (xinit exU true exDecls) exH = Some (t, s) /\ quiet s /\ plainNames exH /\ statesOk exDecls exH
  /\ whole exCmd /\ cmdLabel 4294967290 exW = chars "-6:bob"
  /\ retsOf (commandKey (chars "go")) (queueReturns o) = [(1%nat, VStr (chars "-6:bob"))]
  /\ retsOf (paramKey (chars "-6:bob") 1) (queueReturns o) = [(2%nat, VStr (chars "x"))]
  /\ sentCommands None t = [(2, 4%nat)] /\ In (OReturn 4%nat (VInt 5)) o
  /\ known exDecls exH (mkState (chars "temp") []) = Some (VInt 25) /\ reply exDecls exH (mkState (chars "temp") [VInt 1]) = Some (VInt 25)
  /\ known exDecls exH (mkState (chars "bob:pressure") []) = None /\ callOk (lookupCall (mkState (chars "bob:pressure") []))
  /\ answersWith 3 (sentState (mkState (chars "bob:pressure") [])) (retMsg exW 10 3 exU (KReal 0)) = Some (VReal 0)
  /\ directed (chars "bob:pressure") (chars "bob") (chars "pressure").
Proof.
  eexists _, _, _. split; [vm_compute; reflexivity|]. split; [vm_compute; reflexivity|]. split; [repeat split; reflexivity|].
  split; [split; [intros n m I; vm_compute in I; intuition discriminate|intros c m I; cbn in I; intuition discriminate]|].
  split; [intros x I; vm_compute in I; destruct I as [<-|[]]; constructor|].
  split; [split; [reflexivity|split; [intros q [<-|[<-|[]]]; (split; [reflexivity|discriminate])|exact Logic.I]]|].
  split; [reflexivity|]. split; [reflexivity|]. split; [reflexivity|]. split; [reflexivity|]. split; [cbn; auto 20|]. split; [reflexivity|]. split; [reflexivity|]. split; [reflexivity|].
  split; [|split; [reflexivity|left; split; [reflexivity|intros I; vm_compute in I; intuition discriminate]]]. cbn. split; [intros I; vm_compute in I; intuition discriminate|]. split; [intros I; vm_compute in I; intuition discriminate|]. split; [intros v []|reflexivity].
Qed.

(** Assumptions *)
Print Assumptions C68_label.
Print Assumptions C68_receive.
Print Assumptions C68_receive_newest.
Print Assumptions C68_parameter.
Print Assumptions C68_return.
Print Assumptions C68_own_lookup.
Print Assumptions C68_lookup_reply.
Print Assumptions C68_lookup.
Print Assumptions C68_lookup_free.
Print Assumptions C68_whole.
Print Assumptions C68_round_trip.
Print Assumptions C68_plan_file_refuted.
Print Assumptions C68_early_return_refuted.
Print Assumptions C68_early_answer_refuted.
Print Assumptions C68_two_answers_refuted.
Print Assumptions C68_request_zero_refuted.
Print Assumptions C68_directed_lookup_refuted.
Print Assumptions C68_telemetry_taken_refuted.
Print Assumptions C68_name_clash_refuted.
Print Assumptions C68_empty_update_refuted.
Print Assumptions C68_send_failure_refuted.
Print Assumptions C68_lookup_failure_refuted.
Print Assumptions C68_default_loses_refuted.
Print Assumptions C68_bad_argument_refuted.
Print Assumptions C68_example.
Print Assumptions C68_message.
Print Assumptions C68_telemetry.
Print Assumptions C68_update_lookup.
Print Assumptions C68_update.
