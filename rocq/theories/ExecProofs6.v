(** Generic ways of pushing an extra invariant through the executive, and the
    invariants about held resources and waiting nodes. *)
From Verif Require Export ExecProofs5.

Section Push.
Context {W : Type} (P : plan W).
Implicit Types (st : est W).

(** ---------- resolveResourceConflicts ---------- *)
Section J.
Variable J : est W -> Prop.
Hypothesis J_elig : forall st x, Inv P st -> J st -> In x (e_pend st) -> J (fst (checkEligible P st x)).
Hypothesis J_try : forall st x, Inv P st -> J st -> In x (e_pend st) -> J (tryOne P st x).

Lemma tryAll_J l : forall st, Inv P st -> J st -> NoDup l -> (forall x, In x l -> In x (e_pend st)) ->
  J (fold_left (tryOne P) l st).
Proof.
  induction l as [|x l IH]; cbn; intros st HI HJ Hnd Hl; [exact HJ|].
  inversion Hnd as [|? ? Hx Hnd']; subst.
  destruct (tryOne_Inv P st x HI (Hl x (or_introl eq_refl))) as [A B].
  apply IH; auto.
  intros y Hy. assert (y <> x) by congruence. destruct B as [-> | ->]; [auto|]. apply rem1_In_other; auto.
Qed.

Lemma gather_J prio l : forall st acc,
  Inv P st -> J st -> NoDup (acc ++ l) -> (forall x, In x acc \/ In x l -> In x (e_pend st)) ->
  J (fst (fst (gather P st prio l acc))).
Proof.
  induction l as [|x l IH]; intros st acc HI HJ Hnd Hl; cbn [gather]; [exact HJ|].
  destruct (Z.eqb_spec (p_prio P x) prio) as [Hp|Hp]; [|exact HJ].
  assert (Hxp : In x (e_pend st)) by (apply Hl; right; now left).
  pose proof (J_elig st x HI HJ Hxp) as HJ1.
  destruct (checkEligible_Inv P st x HI Hxp) as (A & B & C & D).
  destruct (checkEligible P st x) as [st1 ok]; cbn [fst snd] in *; cbn zeta in *.
  set (acc1 := if ok then acc ++ [x] else acc).
  assert (Hx : ~ In x acc /\ ~ In x l).
  { apply NoDup_remove in Hnd. rewrite in_app_iff in Hnd. tauto. }
  assert (Hnd1 : NoDup (acc1 ++ l)).
  { unfold acc1. destruct ok; [now rewrite <- app_assoc|]. now apply NoDup_remove_1 in Hnd. }
  assert (Hl1 : forall y, In y acc1 \/ In y l -> In y (e_pend st1)).
  { intros y Hy. destruct (Nat.eq_dec y x) as [->|Hne].
    - destruct Hy as [Hy|Hy]; [|tauto]. unfold acc1 in Hy. destruct ok; [now apply C|tauto].
    - assert (Hy' : In y (e_pend st)).
      { apply Hl. destruct Hy as [Hy|Hy]; [|right; now right]. left. unfold acc1 in Hy.
        destruct ok; [|exact Hy]. rewrite in_snoc in Hy. intuition congruence. }
      destruct B as [-> | ->]; [exact Hy'|]. apply rem1_In_other; auto. }
  destruct (memb x (e_pend st1)) eqn:Em; [|exact HJ1].
  now apply IH.
Qed.

Lemma resolveLoop_J fuel : forall st l,
  Inv P st -> J st -> NoDup l -> (forall x, In x l -> In x (e_pend st)) -> length l <= fuel ->
  J (resolveLoop P fuel st l).
Proof.
  induction fuel as [|f IH]; intros st l HI HJ Hnd Hl Hlen; destruct l as [|x l'].
  - exact HJ.
  - cbn in Hlen; lia.
  - exact HJ.
  - cbn [resolveLoop].
    pose proof (gather_Inv P (p_prio P x) (x :: l') st [] HI Hnd) as G.
    pose proof (gather_J (p_prio P x) (x :: l') st [] HI HJ Hnd) as GJ.
    destruct (gather P st (p_prio P x) (x :: l') []) as [[st1 acc] rest]. cbn [fst] in GJ.
    destruct G as (G1 & G2 & G3 & G4 & G5). { intros y [[]|Hy]; auto. }
    assert (GJ' : J st1). { apply GJ. intros y [[]|Hy]; auto. }
    destruct (NoDup_app_l _ _ G2) as (N1 & N2 & N3).
    destruct (tryAll_Inv P acc st1 G1 N1) as [T1 T2]. { intros; apply G3; auto. }
    apply IH; auto.
    + apply tryAll_J; auto.
    + intros y Hy. apply T2; [|apply G3; auto]. intro Hy'. exact (N3 y Hy' Hy).
    + specialize (G5 x l' eq_refl eq_refl). cbn in *. lia.
Qed.

Lemma resolve_J st : Inv P st -> J st -> J (resolve P st).
Proof.
  intros HI HJ. unfold resolve. apply resolveLoop_J; auto. apply (q_ndp _ _ (proj1 HI)).
Qed.
End J.

(** ---------- a transition as a chain of elementary operations on node x ---------- *)
Section JT.
Variables (J : est W -> Prop) (x : nat).
Hypothesis J_notify : forall st n, J st -> J (notify st n).
Hypothesis J_release : forall st r, J st -> J (release st r x).
Hypothesis J_inert : forall st st', inert st st' -> (forall e, In e (e_trace st) -> In e (e_trace st')) -> J st -> J st'.
Hypothesis J_core : forall st k, J st -> J (setCore st x k).
Hypothesis J_fin : forall st, J st -> J (addFinished st x).
Hypothesis J_err : forall st e, J st -> J (fail st e).

Lemma notifyAll_J l : forall st, J st -> J (notifyAll st l).
Proof. induction l as [|y l IH]; cbn; intros st H; [exact H|]. apply IH, J_notify, H. Qed.
Lemma releaseAll_J l : forall st, J st -> J (releaseAll st x l).
Proof. induction l as [|y l IH]; cbn; intros st H; [exact H|]. apply IH, J_release, H. Qed.
Lemma notifyKids_J st n nxt : J st -> J (notifyKids P st n nxt).
Proof.
  intro H. unfold notifyKids. destruct (p_type P n); try exact H.
  assert (G : forall (f : est W -> nat -> bool) l st, J st -> J (fold_left (fun st c => if f st c then notify st c else st) l st)).
  { intros f. induction l as [|y l IH]; cbn; intros s Hs; [exact Hs|]. apply IH. destruct (f s y); [now apply J_notify|exact Hs]. }
  destruct nxt; try exact H; apply (G (fun st c => nstate_eqb (state st c) _)); exact H.
Qed.

Lemma transition_J st pre post : J st -> J (transition P st x pre post).
Proof.
  intro H. unfold transition. destruct (next st x) as [nxt|]; [|now apply J_err].
  destruct (nstate_eqb nxt (state st x)); [exact H|].
  apply notifyAll_J. eapply J_inert; [apply log_inert|cbn; auto|].
  eapply J_inert; [apply set_world_inert|cbn; auto|].
  eapply J_inert; [apply execEnqueue_inert| |].
  { unfold execEnqueue. destruct nxt; auto. destruct (p_type P x); auto. }
  eapply J_inert; [apply resetAcks_inert| |].
  { unfold resetAcks. destruct nxt; auto. }
  apply notifyKids_J. unfold afterSetState.
  match goal with |- context[setCore ?a ?b ?c] => assert (H4 : J (setCore a b c)) end.
  { apply J_core. eapply J_inert; [apply failEnqueue_inert| |].
    { unfold failEnqueue. destruct nxt; auto. destruct (p_type P x); auto. }
    assert (H1 : forall s0, J s0 -> J (leaveResources P (notifyAll s0 pre) x (state st x) nxt)).
    { intros s0 Hs0. assert (Hn : J (notifyAll s0 pre)) by now apply notifyAll_J.
      unfold leaveResources. destruct nxt; try exact Hn.
      - destruct (isWaiting _); [exact Hn|]. apply releaseAll_J. destruct (isAssignment P x); auto.
      - match goal with |- context[if ?c then release ?a ?b ?d else ?e] => assert (H5 : J (if c then release a b d else e)) end.
        { destruct (_ && _); auto. }
        destruct (isWaiting _); auto. apply releaseAll_J; auto. }
    apply H1. destruct (inb nxt _); auto. }
  match goal with |- context[setCore ?a ?b ?c] => set (st4 := setCore a b c) in * end. clearbody st4.
  destruct (parent P x); [now apply J_notify|]. destruct nxt; auto.
Qed.

Hypothesis J_pop : forall st cs, e_chg st = x :: cs -> J st ->
  J (setQs (set_queues st (e_cand st) (e_pend st) cs (e_fin st)) x QNone).
Lemma transitionOne_J st pre post cs : e_chg st = x :: cs -> J st -> J (transitionOne P st pre post).
Proof.
  intros Ec H. unfold transitionOne. rewrite Ec. apply transition_J.
  destruct (qs st x); try apply J_notify; apply J_pop; auto.
Qed.
End JT.

(** ---------- raw effect of the operations on reservations ---------- *)
Lemma notify_res st n : e_res (notify st n) = e_res st.
Proof. unfold notify. destruct (qs st n); reflexivity. Qed.
Lemma notify_pend st n : e_pend (notify st n) = e_pend st.
Proof. unfold notify. destruct (qs st n); reflexivity. Qed.
Lemma notify_chg st n : e_chg (notify st n) = e_chg st.
Proof. unfold notify. destruct (qs st n); reflexivity. Qed.

Lemma fold_notifyRes_qs l : forall st n,
  let st' := fold_left notifyRes l st in
  e_res st' = e_res st /\ e_pend st' = e_pend st /\ e_chg st' = e_chg st /\ e_trace st' = e_trace st /\
  (qs st' n = qs st n \/ (In n l /\ (qs st' n = QPendingTry \/ qs st' n = QPendingTryCheck))) /\
  (In n l -> qs st' n <> QPending /\ qs st' n <> QPendingCheck).
Proof.
  induction l as [|y l IH]; cbn; intros st n; [repeat split; auto; tauto|].
  destruct (IH (notifyRes st y) n) as (A & B & C & D & E & F). cbn zeta in *.
  assert (R : e_res (notifyRes st y) = e_res st /\ e_pend (notifyRes st y) = e_pend st /\
              e_chg (notifyRes st y) = e_chg st /\ e_trace (notifyRes st y) = e_trace st).
  { unfold notifyRes; destruct (qs st y); auto. }
  destruct R as (R1 & R2 & R3 & R4). rewrite A, B, C, D, R1, R2, R3, R4.
  assert (Hq : (qs (notifyRes st y) n = qs st n \/ (y = n /\ (qs (notifyRes st y) n = QPendingTry \/ qs (notifyRes st y) n = QPendingTryCheck))) /\
               (y = n -> qs (notifyRes st y) n <> QPending /\ qs (notifyRes st y) n <> QPendingCheck)).
  { unfold notifyRes. destruct (qs st y) eqn:Eq; try (split; [auto|intros ->; rewrite Eq; split; discriminate]);
    rewrite qs_setQs; destruct (Nat.eqb_spec n y) as [->|Hne]; (split; [auto|intros; try congruence; split; discriminate]). }
  destruct Hq as [Hq1 Hq2].
  do 4 (split; [reflexivity|]). split.
  - destruct E as [E|(E1 & E2)]; [|auto]. rewrite E. destruct Hq1 as [Hq1|[Hq1 Hq3]]; auto.
  - intros [Hy|Hi]; [|auto]. destruct E as [E|(E1 & E2)]; [rewrite E; auto|]. intuition congruence.
Qed.

Lemma release_raw st r x :
  let st' := release st r x in
  e_pend st' = e_pend st /\ e_chg st' = e_chg st /\ e_trace st' = e_trace st /\
  (forall r', waiters st' r' = waiters st r') /\
  (forall r', holder st' r' = if res_eqb r' r then match holder st r with Some h => if Nat.eqb h x then None else Some h | None => None end else holder st r') /\
  (forall n, (qs st' n = qs st n \/ qs st' n = QPendingTry \/ qs st' n = QPendingTryCheck) /\
             (In n (waiters st r) -> holder st r = Some x -> qs st' n <> QPending /\ qs st' n <> QPendingCheck)).
Proof.
  unfold release. fold (holder st r). destruct (holder st r) as [h|] eqn:Eh.
  2:{ cbn zeta. repeat split; auto; try discriminate. intro r'. destruct (res_eqb r' r) eqn:E; [apply res_eqb_eq in E; now subst|reflexivity]. }
  destruct (Nat.eqb_spec h x) as [->|Hne].
  2:{ cbn zeta. repeat split; auto; try congruence. intro r'. destruct (res_eqb r' r) eqn:E; [apply res_eqb_eq in E; now subst|reflexivity]. }
  set (st1 := set_res st (updr (e_res st) r (mkRes None (r_waiters (e_res st r))))).
  cbn zeta. fold (waiters st r).
  destruct (fold_notifyRes_qs (waiters st r) st1 0) as (A & B & C & D & _). cbn zeta in *.
  split; [exact B|]. split; [exact C|]. split; [exact D|]. split; [|split].
  - intro r'. unfold waiters at 1. rewrite A. cbn. unfold updr. destruct (res_eqb r' r) eqn:E; [|reflexivity].
    apply res_eqb_eq in E; subst; reflexivity.
  - intro r'. unfold holder at 1. rewrite A. cbn. unfold updr. destruct (res_eqb r' r) eqn:E; reflexivity.
  - intro n. destruct (fold_notifyRes_qs (waiters st r) st1 n) as (_ & _ & _ & _ & E & F). cbn zeta in *.
    split; [tauto|]. intros Hi _. now apply F.
Qed.

Lemma in_res_dec (r : res) (l : list res) : {In r l} + {~ In r l}.
Proof. apply in_dec. decide equality; apply Nat.eq_dec. Qed.

(** ---------- who holds what ---------- *)
Definition isMutex (r : res) : Prop := match r with RMutex _ => True | RVar _ => False end.

Definition H1 st n : Prop := forall r, holder st r = Some n ->
  running (state st n) = true \/ (In n (e_chg st) /\ next st n = Some EXECUTING) \/
  (isMutex r /\ cut_short (e_trace st) n).
Definition HInv st : Prop := forall n, H1 st n.

Lemma cut_mono tr tr' n : (forall e, In e tr -> In e tr') -> cut_short tr n -> cut_short tr' n.
Proof. unfold cut_short. intuition. Qed.

Lemma H1_same st st' n : same n st st' -> (forall e, In e (e_trace st) -> In e (e_trace st')) -> H1 st n -> H1 st' n.
Proof.
  intros [] Ht H r Hr. apply s_hold in Hr. specialize (H r Hr). unfold state, next in *.
  rewrite s_core, s_chg. destruct H as [H|[H|[H H']]]; auto. right; right. split; [exact H|]. eapply cut_mono; eauto.
Qed.
Lemma H1_calm st st' x : ~ In x (e_chg st) -> state st' x = state st x ->
  (forall r, holder st' r = Some x -> holder st r = Some x) ->
  (forall e, In e (e_trace st) -> In e (e_trace st')) -> H1 st x -> H1 st' x.
Proof.
  intros Hc Hs Hh Ht H r Hr. apply Hh in Hr. specialize (H r Hr). rewrite Hs.
  destruct H as [H|[H|[H H']]]; [auto|tauto|]. right; right. split; [exact H|]. eapply cut_mono; eauto.
Qed.

Definition hsame st st' : Prop := forall r, holder st' r = holder st r.
Lemma hsame_refl st : hsame st st. Proof. intro; reflexivity. Qed.
Lemma hsame_trans a b c : hsame a b -> hsame b c -> hsame a c.
Proof. intros A B r. now rewrite B. Qed.
Lemma hsame_removeWaiting st r x : hsame st (removeWaiting st r x).
Proof.
  intro r'. unfold removeWaiting, holder; cbn. unfold updr. destruct (res_eqb r' r) eqn:E; [|reflexivity].
  apply res_eqb_eq in E; subst; reflexivity.
Qed.
Lemma hsame_removePending st x : hsame st (removePending P st x).
Proof.
  unfold removePending, releaseReservations.
  set (st0 := setQs _ _ _). assert (H0 : hsame st st0) by (intro; reflexivity). clearbody st0.
  set (st1 := if isAssignment P x then _ else _).
  assert (H1' : hsame st st1). { unfold st1. destruct (isAssignment P x); [|exact H0]. eapply hsame_trans; [exact H0|apply hsame_removeWaiting]. }
  clearbody st1. clear H0 st0. revert st1 H1'.
  induction (mutexes P x) as [|r rs IH]; cbn; intros st1 H; [exact H|].
  apply IH. eapply hsame_trans; [exact H|apply hsame_removeWaiting].
Qed.
Lemma hsame_addStateChange st x : hsame st (addStateChange st x).
Proof. unfold addStateChange. destruct (qs st x); intro; reflexivity. Qed.
Lemma hsame_getDestNode st x : hsame st (fst (getDestNode P st x)).
Proof. unfold getDestNode. destruct (coreGetDest _ _ _ _). intro; reflexivity. Qed.
Lemma hsame_checkEligible st x : hsame st (fst (checkEligible P st x)).
Proof.
  unfold checkEligible. destruct (qs st x); try (intro; reflexivity).
  - pose proof (hsame_getDestNode st x) as H. destruct (getDestNode P st x) as [st1 go]; cbn [fst] in *.
    eapply hsame_trans; [exact H|]. destruct go; cbn [negb].
    + destruct (isExecuting (next st1 x)); cbn [negb]; [intro; reflexivity|].
      eapply hsame_trans; [apply hsame_removePending|]. eapply hsame_trans; [apply hsame_addStateChange|]. intro; reflexivity.
    + eapply hsame_trans; [apply hsame_removePending|]. intro; reflexivity.
  - pose proof (hsame_getDestNode st x) as H. destruct (getDestNode P st x) as [st1 go]; cbn [fst] in *.
    destruct go; cbn [negb fst]; [|eapply hsame_trans; [exact H|apply hsame_removePending]].
    destruct (isExecuting (next st1 x)); cbn [negb fst]; [exact H|]. eapply hsame_trans; [exact H|].
    eapply hsame_trans; [apply hsame_removePending|apply hsame_addStateChange].
Qed.

Lemma HInv_exc st st' x : sameexc x st st' -> (forall e, In e (e_trace st) -> In e (e_trace st')) ->
  HInv st -> H1 st' x -> HInv st'.
Proof.
  intros Hs Ht H Hx n. destruct (Nat.eq_dec n x) as [->|Hne]; [exact Hx|].
  eapply H1_same; [now apply Hs|exact Ht|apply H].
Qed.
Lemma quiet_incl st st' : quiet st st' -> forall e, In e (e_trace st) -> In e (e_trace st').
Proof. intros [] e. now rewrite qt_trace. Qed.

Lemma checkEligible_HInv st x : Inv P st -> HInv st -> In x (e_pend st) -> HInv (fst (checkEligible P st x)).
Proof.
  intros HI HH Hx. destruct (checkEligible_Inv P st x HI Hx) as (_ & _ & _ & D). cbn zeta in D.
  pose proof (quiet_checkEligible P st x) as Q.
  apply (HInv_exc st _ x D (quiet_incl _ _ Q) HH).
  apply (H1_calm st); [apply (pend_not_chg P st x (proj1 HI) Hx)|apply (qt_state _ _ Q)| |apply (quiet_incl _ _ Q)|apply HH].
  intros r. now rewrite hsame_checkEligible.
Qed.

Lemma tryOne_sameexc st x : QInv P st -> In x (e_pend st) -> sameexc x st (tryOne P st x).
Proof.
  intros HQ Hx. unfold tryOne.
  destruct (tryAcquire_spec P st x HQ Hx) as (A1 & A2 & A3 & A4 & A5 & A6 & A7).
  destruct (tryAcquire P st x) as [st1 ok]; cbn [fst snd] in *; cbn zeta in *.
  assert (Hx1 : In x (e_pend st1)) by now rewrite A4.
  destruct (pend_qs P st1 x A1 Hx1) as (Q1 & Q2 & Q3).
  destruct ok.
  - destruct (removePending_spec P st1 x A1 Hx1) as (D1 & D2 & D3 & D4 & D5 & D6 & D7 & D8).
    destruct (addStateChange_spec P _ x D1 D6) as (E1 & E2 & _). cbn zeta in *.
    eapply sameexc_trans; [exact A2|]. eapply sameexc_trans; [exact D2|exact E2].
  - eapply sameexc_trans; [exact A2|]. apply sameall_exc, sameall_setQs. split; [discriminate|contradiction].
Qed.

Lemma tryOne_HInv st x : Inv P st -> HInv st -> In x (e_pend st) -> HInv (tryOne P st x).
Proof.
  intros HI HH Hx. pose proof HI as [HQ HC].
  apply (HInv_exc st _ x (tryOne_sameexc st x HQ Hx) (quiet_incl _ _ (quiet_tryOne P st x)) HH).
  pose proof (quiet_tryOne P st x) as Q.
  unfold tryOne in *.
  destruct (tryAcquire_spec P st x HQ Hx) as (A1 & A2 & A3 & A4 & A5 & A6 & A7).
  destruct (tryAcquire_spec2 P st x HQ Hx) as (B1 & B2 & B3 & B4 & B5 & B6).
  destruct (tryAcquire P st x) as [st1 ok]; cbn [fst snd] in *; cbn zeta in *.
  assert (Hx1 : In x (e_pend st1)) by now rewrite A4.
  destruct ok.
  - destruct (removePending_spec P st1 x A1 Hx1) as (D1 & D2 & D3 & D4 & D5 & D6 & D7 & D8).
    destruct (addStateChange_spec P _ x D1 D6) as (E1 & E2 & E3 & E4 & _). cbn zeta in *.
    intros r _. right; left. rewrite E4, in_snoc. split; [auto|].
    unfold next. rewrite E3, D3, A3. apply (c_pend _ _ _ (HC x) Hx).
  - apply (H1_calm st); [apply (pend_not_chg P st x HQ Hx)|apply (qt_state _ _ Q)| |apply (quiet_incl _ _ Q)|apply HH].
    intros r. change (holder (setQs st1 x QPending) r) with (holder st1 r). intro Hr.
    destruct (in_res_dec r (mutexes P x)) as [Hm|Hm]; [exfalso; now apply (B3 eq_refl r Hm)|].
    now rewrite <- (B4 eq_refl r Hm).
Qed.

Lemma checkOne_HInv st : Inv P st -> HInv st -> HInv (checkOne P st).
Proof.
  intros HI HH. pose proof HI as [HQ HC]. pose proof (quiet_checkOne P st) as Q. unfold checkOne in *.
  destruct (e_cand st) as [|x cs] eqn:Ec; [exact HH|].
  destruct (popCand_spec P st x cs HQ Ec) as (A1 & A2 & A3). cbn zeta in *.
  set (st0 := setQs _ _ _) in *.
  assert (Hc0 : ExecProofs.CInv P st0 x) by (eapply CInv_same; [apply A2|apply HC]).
  assert (Hg0 : ~ In x (e_chg st0)).
  { intro Hi. apply (q_chg _ _ A1) in Hi. unfold isTransQ in Hi. intuition congruence. }
  assert (Hg : ~ In x (e_chg st)) by exact Hg0.
  destruct (getDestNode_spec P st0 x A1 Hc0 Hg0) as (B1 & B2 & B3 & B4 & B5 & B6 & B7 & _).
  destruct (getDestNode P st0 x) as [st1 go]; cbn [fst snd] in *; cbn zeta in *.
  assert (S1 : sameexc x st st1) by (eapply sameexc_trans; [apply sameall_exc, A2|exact B2]).
  assert (F1 : qs st1 x = QNone) by now rewrite B5.
  assert (Hh1 : forall r, holder st1 r = Some x -> holder st r = Some x).
  { intros r. rewrite B6. apply (s_hold _ _ _ (A2 x)). }
  clearbody st0.
  destruct go.
  - set (st2 := if _ && _ then _ else _) in *.
    assert (G : sameexc x st1 st2 /\ (forall r, holder st2 r = holder st1 r)).
    { unfold st2. destruct (isExecuting (next st1 x) && acquiresResources P x) eqn:Ea.
      - apply andb_true_iff in Ea as [_ Ea]. destruct (addPending_spec P st1 x B1 F1 Ea) as (_ & C2 & _ & _ & _ & _ & C7). auto.
      - destruct (addStateChange_spec P st1 x B1 F1) as (_ & C2 & _ & _ & _ & _ & _ & C8). auto. }
    clearbody st2. destruct G as [G1 G2].
    apply (HInv_exc st _ x); [eapply sameexc_trans; eassumption|apply (quiet_incl _ _ Q)|exact HH|].
    apply (H1_calm st); [exact Hg|apply (qt_state _ _ Q)| |apply (quiet_incl _ _ Q)|apply HH].
    intros r. rewrite G2. apply Hh1.
  - apply (HInv_exc st _ x); [exact S1|apply (quiet_incl _ _ Q)|exact HH|].
    apply (H1_calm st); [exact Hg|apply (qt_state _ _ Q)|exact Hh1|apply (quiet_incl _ _ Q)|apply HH].
Qed.

(** What a transition releases. *)
Definition released st x (s nxt : nstate) (r : res) : Prop :=
  holder st r = Some x /\
  ((nxt = ITERATION_ENDED /\ s <> WAITING /\ In r (needs P x)) \/
   (nxt = FINISHED /\ s = FAILING /\ isAssignment P x = true /\ r = RVar (p_var P x)) \/
   (nxt = FINISHED /\ s = WAITING /\ In r (mutexes P x))).

Lemma releaseAll_holder rs x : forall st r,
  holder (releaseAll st x rs) r = if existsb (res_eqb r) rs then
     match holder st r with Some h => if Nat.eqb h x then None else Some h | None => None end else holder st r.
Proof.
  induction rs as [|a rs IH]; intros st r; [reflexivity|]. cbn [existsb].
  change (releaseAll st x (a :: rs)) with (releaseAll (release st a x) x rs). rewrite IH. destruct (release_raw st a x) as (_ & _ & _ & _ & A & _). cbn zeta in A. rewrite A.
  destruct (res_eqb r a) eqn:E; cbn.
  - apply res_eqb_eq in E; subst r. destruct (holder st a) as [h|]; [|now destruct (existsb _ _)].
    destruct (Nat.eqb h x) eqn:Eh; [now destruct (existsb _ _)|]. rewrite Eh. now destruct (existsb _ _).
  - reflexivity.
Qed.

Lemma leaveResources_keeps st x s nxt r :
  (holder (leaveResources P st x s nxt) r = Some x -> holder st r = Some x /\ ~ released st x s nxt r).
Proof.
  assert (R1 : forall st r0, holder (release st r0 x) r = Some x -> holder st r = Some x /\ r <> r0).
  { intros s0 r0. destruct (release_raw s0 r0 x) as (_ & _ & _ & _ & A & _). cbn zeta in A. rewrite A.
    destruct (res_eqb r r0) eqn:E.
    - destruct (holder s0 r0) as [h|]; [|discriminate]. destruct (Nat.eqb_spec h x); [discriminate|]. intro H; inversion H; congruence.
    - intro H. split; [exact H|]. intro; subst. rewrite res_eqb_refl in E; discriminate. }
  assert (R2 : forall st rs, holder (releaseAll st x rs) r = Some x -> holder st r = Some x /\ ~ In r rs).
  { intros s0 rs. rewrite releaseAll_holder. destruct (existsb (res_eqb r) rs) eqn:E.
    - destruct (holder s0 r) as [h|]; [|discriminate]. destruct (Nat.eqb_spec h x); [discriminate|]. intro H; inversion H; congruence.
    - intro H. split; [exact H|]. intro Hi. assert (existsb (res_eqb r) rs = true); [|congruence].
      apply existsb_exists. exists r. split; [exact Hi|apply res_eqb_refl]. }
  unfold leaveResources, released.
  destruct nxt; try (intro H; split; [exact H|]; intuition discriminate).
  - destruct (isWaiting s) eqn:Es.
    + apply nstate_eqb_eq in Es. intro H; split; [exact H|]. intuition (congruence || discriminate).
    + intro H. destruct (R2 _ _ H) as [A B]. destruct (isAssignment P x) eqn:Ea.
      * destruct (R1 _ _ A) as [C D]. split; [exact C|]. intros [_ [(_ & _ & Hn)|[(Hf & _)|(Hf & _)]]]; try discriminate.
        destruct (needs_cases P x r Hn) as [Hm|[_ Hv]]; [tauto|congruence].
      * split; [exact A|]. intros [_ [(_ & _ & Hn)|[(Hf & _)|(Hf & _)]]]; try discriminate.
        destruct (needs_cases P x r Hn) as [Hm|[Hv _]]; [tauto|congruence].
  - intro H.
    set (st1 := if isAssignment P x && nstate_eqb s FAILING then release st (RVar (p_var P x)) x else st) in *.
    assert (A : holder st1 r = Some x /\ (s = WAITING -> ~ In r (mutexes P x))).
    { destruct (isWaiting s) eqn:Es.
      - destruct (R2 _ _ H). auto.
      - split; [exact H|]. intros ->. discriminate. }
    destruct A as [A B]. unfold st1 in A.
    destruct (isAssignment P x && nstate_eqb s FAILING) eqn:E.
    + destruct (R1 _ _ A) as [C D]. split; [exact C|]. intros [_ [(Hf & _)|[(_ & _ & _ & Hv)|(_ & Hw & Hm)]]]; try discriminate; tauto.
    + split; [exact A|]. intros [_ [(Hf & _)|[(_ & Hw & Ha & Hv)|(_ & Hw & Hm)]]]; try discriminate; [|tauto].
      rewrite Ha in E. subst s. discriminate.
Qed.

Lemma sameexc_release st r x : sameexc x st (release st r x).
Proof.
  intros n Hn. unfold release. destruct (r_holder (e_res st r)) as [h|] eqn:Eh; [|apply same_refl].
  destruct (Nat.eqb_spec h x) as [->|]; [|apply same_refl].
  set (st1 := set_res st (updr (e_res st) r (mkRes None (r_waiters (e_res st r))))).
  assert (S : same n st st1).
  { revert n Hn. apply set_res_same. intros r' n Hn. unfold updr. destruct (res_eqb r' r) eqn:E; cbn; [|tauto].
    apply res_eqb_eq in E; subst. unfold holder. rewrite Eh. intuition congruence. }
  eapply same_trans; [exact S|]. generalize (r_waiters (e_res st r)) as l. generalize st1 as s. clear.
  intros s l; revert s. induction l as [|y l IH]; intro s; cbn; [apply same_refl|].
  eapply same_trans; [apply notifyRes_same|apply IH].
Qed.
Lemma sameexc_setCore st x k : sameexc x st (setCore st x k).
Proof.
  intros n Hn. constructor; unfold holder; cbn; rewrite ?core_setCore, ?qs_setCore; try tauto.
  destruct (Nat.eqb_spec n x); [congruence|reflexivity].
Qed.
Lemma sameexc_addFinished st x : sameexc x st (addFinished st x).
Proof.
  intros n Hn. unfold addFinished. destruct (qs st x); try apply sameall_fail; try apply same_refl;
  (constructor; unfold holder; cbn; try tauto; [apply (core_setQs st x QDelete n)|];
   change (qs (setQs st x QDelete) n = QDelete <-> qs st n = QDelete); rewrite qs_setQs; destruct (Nat.eqb_spec n x); [congruence|tauto]).
Qed.

Lemma transitionOne_sameexc st pre post x cs : e_chg st = x :: cs -> sameexc x st (transitionOne P st pre post).
Proof.
  intro Ec. apply (transitionOne_J (sameexc x st) x) with (cs := cs); auto.
  - intros s n H. eapply sameexc_trans; [exact H|]. apply sameall_exc, notify_same.
  - intros s r H. eapply sameexc_trans; [exact H|]. apply sameexc_release.
  - intros s s' Hi _ H. eapply sameexc_trans; [exact H|]. now apply sameall_exc, inert_same.
  - intros s k H. eapply sameexc_trans; [exact H|]. apply sameexc_setCore.
  - intros s H. eapply sameexc_trans; [exact H|]. apply sameexc_addFinished.
  - intros s e H. eapply sameexc_trans; [exact H|]. apply sameall_exc, sameall_fail.
  - intros s cs' Ec' H. eapply sameexc_trans; [exact H|]. intros n Hn.
    constructor; unfold holder; cbn; try tauto.
    + apply (core_setQs (set_queues s (e_cand s) (e_pend s) cs' (e_fin s))).
    + rewrite Ec'; cbn; intuition congruence.
    + rewrite qs_setQs. destruct (Nat.eqb_spec n x); [congruence|tauto].
  - apply sameexc_refl.
Qed.

(** holder after a transition is that after leaveResources *)
Lemma transition_res st x pre post nxt : next st x = Some nxt -> nxt <> state st x ->
  exists st1, e_res st1 = e_res st /\
    e_res (transition P st x pre post) = e_res (leaveResources P st1 x (state st x) nxt).
Proof.
  intros Hn Hne. unfold transition. rewrite Hn.
  destruct (nstate_eqb nxt (state st x)) eqn:E; [apply nstate_eqb_eq in E; contradiction|].
  set (st0 := if inb _ _ then _ else _).
  assert (N : forall l (s : est W), e_res (notifyAll s l) = e_res s).
  { induction l as [|y l IH]; intro s; cbn; [reflexivity|]. unfold notifyAll in IH. rewrite IH. apply notify_res. }
  exists (notifyAll st0 pre). split.
  - rewrite N. unfold st0. destruct (inb _ _); reflexivity.
  - rewrite N. cbn. clearbody st0.
    set (st2 := leaveResources P (notifyAll st0 pre) x (state st x) nxt). clearbody st2.
    rewrite (in_res _ _ (execEnqueue_inert P _ x nxt)), (in_res _ _ (resetAcks_inert _ x nxt)).
    assert (K : forall s : est W, e_res (notifyKids P s x nxt) = e_res s).
    { intro s. unfold notifyKids. destruct (p_type P x); try reflexivity.
      assert (G : forall (f : est W -> nat -> bool) l (s : est W), e_res (fold_left (fun st c => if f st c then notify st c else st) l s) = e_res s).
      { intros f. induction l as [|y l IH]; cbn; intro s0; [reflexivity|]. rewrite IH. destruct (f s0 y); [apply notify_res|reflexivity]. }
      destruct nxt; try reflexivity; apply (G (fun st c => nstate_eqb (state st c) _)). }
    rewrite K. unfold afterSetState.
    match goal with |- context[setCore ?a ?b ?c] => assert (H4 : e_res (setCore a b c) = e_res st2); [|set (st4 := setCore a b c) in *] end.
    { cbn. apply (in_res _ _ (failEnqueue_inert P st2 x nxt)). }
    clearbody st4. rewrite <- H4.
    destruct (parent P x); [apply notify_res|]. destruct nxt; try apply notify_res.
    unfold addFinished. destruct (qs st4 x); reflexivity.
Qed.

Lemma leaveResources_cong st st' x s nxt r : e_res st = e_res st' ->
  holder (leaveResources P st x s nxt) r = holder (leaveResources P st' x s nxt) r.
Proof.
  intro E.
  assert (R1 : forall (a b : est W) r0 r', (forall r, holder a r = holder b r) -> holder (release a r0 x) r' = holder (release b r0 x) r').
  { intros a b r0 r' H. destruct (release_raw a r0 x) as (_ & _ & _ & _ & A & _). destruct (release_raw b r0 x) as (_ & _ & _ & _ & B & _).
    cbn zeta in *. rewrite A, B, !H. reflexivity. }
  assert (R2 : forall (a b : est W) rs r', (forall r, holder a r = holder b r) -> holder (releaseAll a x rs) r' = holder (releaseAll b x rs) r').
  { intros a b rs r' H. rewrite !releaseAll_holder, !H. reflexivity. }
  assert (E' : forall r, holder st r = holder st' r) by (intro; unfold holder; now rewrite E).
  unfold leaveResources. destruct nxt; auto.
  - destruct (isWaiting s); auto. apply R2. intro r1. destruct (isAssignment P x); auto.
  - destruct (isWaiting s).
    + apply R2. intro r1. destruct (_ && _); auto.
    + destruct (_ && _); auto.
Qed.

Lemma transitionOne_holder st pre post x cs nxt r :
  Inv P st -> e_chg st = x :: cs -> next st x = Some nxt -> nxt <> state st x ->
  holder (transitionOne P st pre post) r = Some x ->
  holder st r = Some x /\ ~ released st x (state st x) nxt r.
Proof.
  intros [HQ HC] Ec Hn Hne. unfold transitionOne. rewrite Ec.
  set (st0 := setQs _ _ _).
  assert (C0 : forall n, core st0 n = core st n) by (intro n; apply (core_setQs (set_queues st (e_cand st) (e_pend st) cs (e_fin st)))).
  set (st1 := match qs st x with QTransitionCheck => notify st0 x | _ => st0 end).
  assert (H1' : core st1 x = core st x /\ e_res st1 = e_res st).
  { unfold st1. destruct (qs st x); try (split; [apply C0|reflexivity]).
    split; [rewrite (s_core _ _ _ (notify_same st0 x x)); apply C0|rewrite notify_res; reflexivity]. }
  clearbody st1. destruct H1' as [C1 R1].
  assert (Hn1 : next st1 x = Some nxt) by (unfold next; rewrite C1; exact Hn).
  assert (Hs1 : state st1 x = state st x) by (unfold state; now rewrite C1).
  rewrite <- Hs1 in Hne. destruct (transition_res st1 x pre post nxt Hn1 Hne) as (st2 & E2 & E3).
  unfold holder at 1. rewrite E3. fold (holder (leaveResources P st2 x (state st1 x) nxt) r). rewrite Hs1.
  rewrite (leaveResources_cong st2 st) by congruence. apply leaveResources_keeps.
Qed.

Lemma transitionOne_HInv st pre post : Inv P st -> HInv st -> HInv (transitionOne P st pre post).
Proof.
  intros HI HH. destruct (e_chg st) as [|x cs] eqn:Ec; [unfold transitionOne; rewrite Ec; exact HH|].
  destruct (transitionOne_moved P st pre post x cs HI Ec) as (nxt & Hn & Hs & Hne & M).
  assert (Ht : forall e, In e (e_trace st) -> In e (e_trace (transitionOne P st pre post))).
  { intros e He. rewrite (mv_trace _ _ _ _ _ _ M). now right. }
  apply (HInv_exc st _ x (transitionOne_sameexc st pre post x cs Ec) Ht HH).
  intros r Hr. destruct (transitionOne_holder st pre post x cs nxt r HI Ec Hn Hne Hr) as [Ho Hnr].
  pose proof (HH x r Ho) as Hx. rewrite (mv_state _ _ _ _ _ _ M), Nat.eqb_refl.
  pose proof (q_holder _ _ (proj1 HI) r x Ho) as Hnd.
  assert (Hcut : isMutex r /\ cut_short (e_trace st) x -> isMutex r /\ cut_short (e_trace (transitionOne P st pre post)) x).
  { intros [A B]. split; [exact A|]. eapply cut_mono; eauto. }
  destruct (running nxt) eqn:Er; [auto|]. right; right.
  destruct Hx as [Hx | [ [_ Hx] | Hx] ]; [|rewrite Hn in Hx; inversion Hx; subst; discriminate|auto].
  (* the node was running and stops *)
  assert (Hcase : nxt = ITERATION_ENDED \/ nxt = FINISHED).
  { destruct (state st x); try discriminate Hx; destruct (p_type P x); cbn in Hs; intuition (subst; auto; discriminate). }
  destruct Hcase as [-> | ->].
  - exfalso. apply Hnr. split; [exact Ho|]. left. split; [reflexivity|]. split; [|exact Hnd]. intro E; rewrite E in Hx; discriminate.
  - rewrite (mv_trace _ _ _ _ _ _ M). split.
    + destruct (needs_cases P x r Hnd) as [Hm|[Ha Hv]].
      * apply mutexes_In in Hm as (m & -> & _). exact I.
      * exfalso. apply Hnr. split; [exact Ho|]. right; left. split; [reflexivity|].
        split; [|auto]. unfold isAssignment in Ha. destruct (p_type P x); try discriminate Ha.
        destruct (state st x); try discriminate Hx; cbn in Hs; intuition (congruence || discriminate).
    + unfold cut_short. cbn.
      destruct (state st x); try discriminate Hx; auto.
      exfalso. destruct (p_type P x); cbn in Hs; intuition discriminate.
Qed.

Lemma HInv_sameall st st' : sameall st st' -> (forall e, In e (e_trace st) -> In e (e_trace st')) -> HInv st -> HInv st'.
Proof. intros Hs Ht H n. eapply H1_same; [apply Hs|exact Ht|apply H]. Qed.

(** ---------- why pending nodes wait ---------- *)
Definition blocked st n : Prop :=
  exists r h, In r (needs P n) /\ holder st r = Some h /\ h <> n /\ In n (waiters st r).
Definition parked (q : qstatus) : Prop := q = QPending \/ q = QPendingCheck.
Definition W1 st n : Prop := In n (e_pend st) -> parked (qs st n) -> blocked st n \/ cut_short (e_trace st) n.
Definition WInv st : Prop := forall n, W1 st n.

Lemma W1_mono st st' n :
  (In n (e_pend st') -> In n (e_pend st)) -> (parked (qs st' n) -> parked (qs st n)) ->
  (forall e, In e (e_trace st) -> In e (e_trace st')) ->
  (forall r h, parked (qs st' n) -> holder st r = Some h -> h <> n -> In n (waiters st r) ->
      holder st' r = Some h /\ In n (waiters st' r)) ->
  W1 st n -> W1 st' n.
Proof.
  intros A B C D H Hp Hq. destruct (H (A Hp) (B Hq)) as [(r & h & E & F & G & K)|K]; [|right; eapply cut_mono; eauto].
  left. exists r, h. destruct (D r h Hq F G K). auto.
Qed.

Lemma W1_notify st x n : W1 st n -> W1 (notify st x) n.
Proof.
  apply W1_mono.
  - now rewrite notify_pend.
  - unfold notify, parked. destruct (qs st x) eqn:E; auto.
    + intro H. change (qs (setQs st x QCheck) n = QPending \/ qs (setQs st x QCheck) n = QPendingCheck) in H.
      rewrite qs_setQs in H. destruct (Nat.eqb_spec n x); intuition congruence.
    + rewrite qs_setQs. destruct (Nat.eqb_spec n x); subst; intuition congruence.
    + rewrite qs_setQs. destruct (Nat.eqb_spec n x); subst; intuition congruence.
    + rewrite qs_setQs. destruct (Nat.eqb_spec n x); subst; intuition congruence.
  - intros e. now rewrite (qt_trace _ _ (quiet_notify st x)).
  - intros r h _ A _ B. unfold holder, waiters in *. now rewrite notify_res.
Qed.
Lemma W1_release st r x n : W1 st n -> W1 (release st r x) n.
Proof.
  destruct (release_raw st r x) as (A & B & C & D & E & F). cbn zeta in *. destruct (F n) as [F1 F2].
  apply W1_mono.
  - now rewrite A.
  - unfold parked. intuition congruence.
  - now rewrite C.
  - intros r' h Hq Hh Hne Hw. rewrite D, E. split; [|exact Hw].
    destruct (res_eqb r' r) eqn:Er; [|exact Hh]. apply res_eqb_eq in Er; subst r'. rewrite Hh.
    destruct (Nat.eqb_spec h x); [|reflexivity]. subst h. specialize (F2 Hw Hh). unfold parked in Hq. tauto.
Qed.
Lemma W1_releaseAll rs x n : forall st, W1 st n -> W1 (releaseAll st x rs) n.
Proof. induction rs as [|r rs IH]; cbn; intros st H; [exact H|]. apply IH, W1_release, H. Qed.
Lemma addWaiting_raw st r x : let st' := addWaiting st r x in
  e_pend st' = e_pend st /\ e_trace st' = e_trace st /\ e_nodes st' = e_nodes st /\ (forall r', holder st' r' = holder st r') /\
  (forall r' n, In n (waiters st r') -> In n (waiters st' r')).
Proof.
  unfold addWaiting. destruct (memb _ _); cbn; [repeat split; auto|].
  repeat split; auto; unfold holder, waiters; cbn; unfold updr; intros r'; destruct (res_eqb r' r) eqn:E; try reflexivity; auto;
  apply res_eqb_eq in E; subst; cbn; auto. intros n Hn. rewrite in_app_iff; auto.
Qed.
Lemma W1_addWaiting st r x n : W1 st n -> W1 (addWaiting st r x) n.
Proof.
  destruct (addWaiting_raw st r x) as (A & B & C & D & E). cbn zeta in *.
  apply W1_mono; rewrite ?A, ?B; auto. { unfold qs; now rewrite C. }
  intros r' h _ Hh _ Hw. rewrite D; auto.
Qed.
Lemma W1_set_res st f n : (forall r h, holder st r = Some h -> In n (waiters st r) -> r_holder (f r) = Some h /\ In n (r_waiters (f r))) ->
  W1 st n -> W1 (set_res st f) n.
Proof. intro H. apply W1_mono; auto. intros r h _ A _ B. exact (H r h A B). Qed.
Lemma W1_removeWaiting st r x n : n <> x -> W1 st n -> W1 (removeWaiting st r x) n.
Proof.
  intros Hne. apply W1_set_res. intros r' h Hh Hw. unfold updr. destruct (res_eqb r' r) eqn:E; [|auto].
  apply res_eqb_eq in E; subst. cbn. split; [exact Hh|]. now apply rem1_In_other.
Qed.
Lemma W1_acquire st r x n : n <> x -> W1 st n -> W1 (fst (acquire st r x)) n.
Proof.
  intros Hne H. unfold acquire. destruct (r_holder (e_res st r)) eqn:E; cbn; [now apply W1_addWaiting|].
  apply W1_removeWaiting; [exact Hne|]. apply W1_set_res; [|exact H].
  intros r' h Hh Hw. unfold updr. destruct (res_eqb r' r) eqn:Er; [|auto].
  apply res_eqb_eq in Er; subst. unfold holder in Hh. congruence.
Qed.
Lemma W1_fail st e n : W1 st n -> W1 (fail st e) n.
Proof. apply W1_mono; auto. Qed.
Lemma W1_acquireAll rs x n : n <> x -> forall st, W1 st n -> W1 (fst (acquireAll P st x rs)) n.
Proof.
  intro Hne. induction rs as [|r rs IH]; cbn; intros st H; [exact H|].
  pose proof (W1_acquire st r x n Hne H) as H'. destruct (acquire st r x) as [st1 ok]; cbn in H'.
  destruct ok; [now apply IH|]. cbn. destruct (r_holder _); [|exact H']. destruct (memb _ _); [|exact H']. now apply W1_fail.
Qed.
Lemma W1_backOff rs x n : forall st, W1 st n -> W1 (backOff st x rs) n.
Proof.
  unfold backOff. induction rs as [|r rs IH]; cbn; intros st H; [exact H|]. apply IH, W1_addWaiting.
  destruct (r_holder _); [|exact H]. destruct (Nat.eqb _ _); [now apply W1_release|exact H].
Qed.
Lemma W1_tryAcquire st x n : n <> x -> W1 st n -> W1 (fst (tryAcquire P st x)) n.
Proof.
  intros Hne H. unfold tryAcquire. pose proof (W1_acquireAll (mutexes P x) x n Hne st H) as H1'.
  destruct (acquireAll P st x (mutexes P x)) as [st1 ok1]; cbn in H1'.
  set (q := if isAssignment P x then _ else _).
  assert (H2 : W1 (fst q) n).
  { unfold q. destruct (isAssignment P x); [|exact H1']. destruct ok1; cbn; [now apply W1_acquire|now apply W1_addWaiting]. }
  destruct q as [st2 ok2]; cbn in *. destruct ok2; [exact H2|now apply W1_backOff].
Qed.
Lemma W1_setQs st x q n : n <> x -> W1 st n -> W1 (setQs st x q) n.
Proof. intro Hne. apply W1_mono; auto. rewrite qs_setQs. destruct (Nat.eqb_spec n x); [congruence|auto]. Qed.
Lemma W1_queues st c p g f n : (In n p -> In n (e_pend st)) -> W1 st n -> W1 (set_queues st c p g f) n.
Proof. intro Hp. apply W1_mono; auto. Qed.
Lemma W1_removePending st x n : n <> x -> W1 st n -> W1 (removePending P st x) n.
Proof.
  intros Hne H. unfold removePending, releaseReservations.
  set (st0 := setQs _ _ _).
  assert (H0 : W1 st0 n). { apply W1_setQs; [exact Hne|]. apply W1_queues; [|exact H]. apply rem1_In. }
  clearbody st0. set (st1 := if isAssignment P x then _ else _).
  assert (H1' : W1 st1 n). { unfold st1. destruct (isAssignment P x); [now apply W1_removeWaiting|exact H0]. }
  clearbody st1. clear H0 st0. revert st1 H1'.
  induction (mutexes P x) as [|r rs IH]; cbn; intros st1 H'; [exact H'|]. apply IH. now apply W1_removeWaiting.
Qed.
Lemma W1_addStateChange st x n : W1 st n -> W1 (addStateChange st x) n.
Proof.
  intros H. unfold addStateChange. destruct (qs st x) eqn:E; try now apply W1_fail.
  apply W1_queues; [auto|]. destruct (Nat.eq_dec n x) as [->|Hne]; [|now apply W1_setQs].
  intros Hp Hq. unfold parked in Hq. rewrite qs_setQs, Nat.eqb_refl in Hq. intuition discriminate.
Qed.
Lemma W1_setCore st x k n : W1 st n -> W1 (setCore st x k) n.
Proof. apply W1_mono; auto. now rewrite qs_setCore. Qed.
Lemma W1_getDestNode st x n : W1 st n -> W1 (fst (getDestNode P st x)) n.
Proof. intro H. unfold getDestNode. destruct (coreGetDest _ _ _ _). cbn. now apply W1_setCore. Qed.

Lemma W1_out st x : ~ In x (e_pend st) -> W1 st x.
Proof. intros H Hp. contradiction. Qed.

Lemma checkEligible_WInv st x : Inv P st -> WInv st -> In x (e_pend st) -> WInv (fst (checkEligible P st x)).
Proof.
  intros HI HW Hx n. pose proof HI as [HQ HC].
  destruct (Nat.eq_dec n x) as [->|Hne].
  - unfold checkEligible. destruct (qs st x) eqn:Eq; try apply W1_fail; try apply HW.
    + destruct (getDestNode P st x) as [st1 go] eqn:Eg. cbn [fst].
      destruct go; cbn [negb].
      * destruct (isExecuting (next st1 x)) eqn:Ex; cbn [negb].
        -- pose proof (W1_getDestNode st x x (HW x)) as G. rewrite Eg in G; cbn in G.
           apply (W1_mono st1); auto. intros _. unfold parked.
           replace (qs st1 x) with (qs st x); [auto|].
           unfold getDestNode in Eg. destruct (coreGetDest _ _ _ _). inversion Eg; subst. now rewrite qs_setCore.
        -- assert (Hn : next st1 x <> Some EXECUTING) by (intro He; rewrite He in Ex; discriminate).
           destruct (divert_pending_Inv P st st1 x HI Hx Eg Hn) as (A & B & C & D & E). apply W1_out. exact C.
      * destruct (drop_pending_Inv P st st1 x HI Hx Eg) as (A & B & C & D & E). apply W1_out. exact C.
    + destruct (getDestNode P st x) as [st1 go] eqn:Eg. destruct go; cbn [negb].
      * destruct (isExecuting (next st1 x)) eqn:Ex; cbn [negb fst].
        -- pose proof (W1_getDestNode st x x (HW x)) as G. rewrite Eg in G; cbn in G. exact G.
        -- assert (Hn : next st1 x <> Some EXECUTING) by (intro He; rewrite He in Ex; discriminate).
           destruct (divert_pending_Inv P st st1 x HI Hx Eg Hn) as (A & B & C & D & E). apply W1_out. exact C.
      * destruct (drop_pending_Inv P st st1 x HI Hx Eg) as (A & B & C & D & E). apply W1_out. exact C.
  - unfold checkEligible. destruct (qs st x) eqn:Eq; try apply W1_fail; try apply HW.
    + pose proof (W1_getDestNode st x n (HW n)) as G. destruct (getDestNode P st x) as [st1 go]. cbn [fst] in *.
      apply W1_setQs; [exact Hne|]. destruct go; cbn [negb]; [|now apply W1_removePending].
      destruct (isExecuting (next st1 x)); cbn [negb]; [exact G|]. apply W1_addStateChange, W1_removePending; auto.
    + pose proof (W1_getDestNode st x n (HW n)) as G. destruct (getDestNode P st x) as [st1 go]. cbn [fst] in *.
      destruct go; cbn [negb fst]; [|now apply W1_removePending].
      destruct (isExecuting (next st1 x)); cbn [negb fst]; [exact G|]. apply W1_addStateChange, W1_removePending; auto.
Qed.

Hypothesis nodup_mutexes : forall n, NoDup (p_mutex P n).

Lemma tryOne_WInv st x : Inv P st -> HInv st -> WInv st -> In x (e_pend st) -> WInv (tryOne P st x).
Proof.
  intros HI HH HW Hx n. pose proof HI as [HQ HC]. unfold tryOne.
  destruct (Nat.eq_dec n x) as [->|Hne].
  - destruct (tryAcquire_spec P st x HQ Hx) as (A1 & A2 & A3 & A4 & A5 & A6 & A7).
    destruct (tryAcquire_spec2 P st x HQ Hx) as (B1 & B2 & B3 & B4 & B5 & B6).
    pose proof (quiet_tryAcquire P st x) as Q.
    destruct (tryAcquire P st x) as [st1 ok]; cbn [fst snd] in *; cbn zeta in *.
    assert (Hx1 : In x (e_pend st1)) by now rewrite A4.
    destruct ok.
    + destruct (removePending_spec P st1 x A1 Hx1) as (D1 & D2 & D3 & D4 & D5 & D6 & D7 & D8).
      destruct (addStateChange_spec P _ x D1 D6) as (E1 & E2 & E3 & E4 & E5 & E6 & E7 & _). cbn zeta in *.
      now apply W1_out.
    + intros _ _. destruct (B6 (nodup_mutexes x) eq_refl) as (r & h & C1 & C2 & C3).
      change (e_trace (setQs st1 x QPending)) with (e_trace st1). rewrite (qt_trace _ _ Q).
      destruct (Nat.eq_dec h x) as [->|Hh].
      * right. destruct (HH x r C2) as [Hr | [ [Hr _] | [_ Hr] ] ]; [|exfalso; now apply (pend_not_chg P st x HQ Hx)|exact Hr].
        destruct (c_pend _ _ _ (HC x) Hx) as [Hw _]. rewrite Hw in Hr; discriminate.
      * left. exists r, h. split; [exact C1|]. split; [exact (C3 Hh)|]. split; [exact Hh|]. exact (B5 eq_refl r C1).
  - pose proof (W1_tryAcquire st x n Hne (HW n)) as G. destruct (tryAcquire P st x) as [st1 ok]; cbn [fst] in G.
    destruct ok; [|now apply W1_setQs]. apply W1_addStateChange, W1_removePending; auto.
Qed.

Lemma checkOne_WInv st : Inv P st -> WInv st -> WInv (checkOne P st).
Proof.
  intros HI HW n. pose proof HI as [HQ HC]. unfold checkOne.
  destruct (e_cand st) as [|x cs] eqn:Ec; [apply HW|].
  destruct (popCand_spec P st x cs HQ Ec) as (A1 & A2 & A3). cbn zeta in *.
  assert (Hnp : ~ In x (e_pend st)).
  { intro Hi. apply (q_pend _ _ HQ) in Hi. assert (qs st x = QCheck) by (apply (q_cand _ _ HQ); rewrite Ec; now left).
    unfold isPendingQ in Hi. intuition congruence. }
  set (st0 := setQs _ _ _) in *.
  assert (W0 : W1 st0 n).
  { destruct (Nat.eq_dec n x) as [->|Hne]; [apply W1_out; exact Hnp|]. apply W1_setQs; [exact Hne|]. now apply W1_queues. }
  pose proof (W1_getDestNode st0 x n W0) as G.
  destruct (getDestNode P st0 x) as [st1 go]; cbn [fst] in G. destruct go; [|exact G].
  destruct (_ && _); [|now apply W1_addStateChange].
  unfold addPending. destruct (Nat.eq_dec n x) as [->|Hne].
  - intros _ Hq. unfold parked in Hq.
    change (qs (setQs st1 x QPendingTry) x = QPending \/ qs (setQs st1 x QPendingTry) x = QPendingCheck) in Hq.
    rewrite qs_setQs, Nat.eqb_refl in Hq. intuition discriminate.
  - apply W1_queues; [|now apply W1_setQs]. cbn. rewrite insertPrio_In. intuition congruence.
Qed.

Lemma transitionOne_WInv st pre post : Inv P st -> WInv st -> WInv (transitionOne P st pre post).
Proof.
  intros HI HW. pose proof HI as [HQ HC].
  destruct (e_chg st) as [|x cs] eqn:Ec; [unfold transitionOne; rewrite Ec; exact HW|].
  apply (transitionOne_J WInv x) with (cs := cs); auto.
  - intros s n H m. apply W1_notify, H.
  - intros s r H m. apply W1_release, H.
  - intros s s' Hi Ht H m. apply (W1_mono s); auto.
    + now rewrite (in_pend _ _ Hi).
    + now rewrite (in_qs _ _ Hi).
    + intros r h _ A _ B. unfold holder, waiters in *. now rewrite (in_res _ _ Hi).
  - intros s k H m. apply W1_setCore, H.
  - intros s H m. unfold addFinished. destruct (qs s x) eqn:E; try (apply W1_fail, H); try apply H.
    + apply W1_queues; [auto|]. destruct (Nat.eq_dec m x) as [->|Hne]; [|apply W1_setQs, H; auto].
      intros _ Hq. unfold parked in Hq. rewrite qs_setQs, Nat.eqb_refl in Hq. intuition discriminate.
    + apply W1_queues; [auto|]. destruct (Nat.eq_dec m x) as [->|Hne]; [|apply W1_setQs, H; auto].
      intros _ Hq. unfold parked in Hq. rewrite qs_setQs, Nat.eqb_refl in Hq. intuition discriminate.
  - intros s cs' _ H m. destruct (Nat.eq_dec m x) as [->|Hne].
    + intros _ Hq. unfold parked in Hq. rewrite qs_setQs, Nat.eqb_refl in Hq. intuition discriminate.
    + apply W1_setQs; [exact Hne|]. now apply W1_queues.
Qed.

Lemma notifyAll_WInv l : forall st, WInv st -> WInv (notifyAll st l).
Proof. induction l as [|y l IH]; cbn; intros st H; [exact H|]. apply IH. intro m. apply W1_notify, H. Qed.
Lemma inert_WInv st st' : inert st st' -> (forall e, In e (e_trace st) -> In e (e_trace st')) -> WInv st -> WInv st'.
Proof.
  intros Hi Ht H m. apply (W1_mono st); auto.
  - now rewrite (in_pend _ _ Hi).
  - now rewrite (in_qs _ _ Hi).
  - intros r h _ A _ B. unfold holder, waiters in *. now rewrite (in_res _ _ Hi).
Qed.
End Push.
