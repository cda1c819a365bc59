(** One turn of the quiescence loop (PlexilExec.cc:252-358) as a synchronous
    step: all decisions are taken on the same snapshot. *)
From Verif Require Export ExecProofs7.

Section Batch.
Context {W : Type} (P : plan W).
Implicit Types (st : est W).

(** What NodeImpl::getDestState would decide for [n] in [st]. *)
Definition decision st n : dest :=
  getDest (p_type P n) (state st n) (k_fail (core st n)) (option_map (state st) (parent P n)) (condsOf P st n).

Hypothesis wfc : forall w v v' n u, (forall m, v m = v' m) -> p_cond P w v n u = p_cond P w v' n u.

Lemma ucondv_quiet st st' n u : quiet st st' -> ucondv P st' n u = ucondv P st n u.
Proof.
  intros Q. unfold ucondv. destruct (p_has P n u); [|reflexivity]. rewrite (qt_world _ _ Q). f_equal. apply wfc.
  intro m. unfold view. pose proof (qt_state _ _ Q m) as A. pose proof (qt_out _ _ Q m) as B. pose proof (qt_fail _ _ Q m) as C.
  unfold state, core in *. rewrite A, B, C, (qt_handle _ _ Q). reflexivity.
Qed.
Lemma forallb_ext' {A} (f g : A -> bool) l : (forall x, f x = g x) -> forallb f l = forallb g l.
Proof. intro H. induction l; cbn; [reflexivity|]. now rewrite H, IHl. Qed.
Lemma condsOf_quiet st st' n : quiet st st' -> condsOf P st' n = condsOf P st n.
Proof.
  intros Q. unfold condsOf.
  assert (E1 : forall l, kidExit P st' l = kidExit P st l) by (induction l; cbn; [reflexivity|]; now rewrite IHl, (ucondv_quiet st st')).
  assert (E2 : forall l, kidInv P st' l = kidInv P st l) by (induction l; cbn; [reflexivity|]; now rewrite IHl, (ucondv_quiet st st')).
  assert (E3 : forall l, kidEnd P st' l = kidEnd P st l) by (induction l; cbn; [reflexivity|]; now rewrite IHl, (ucondv_quiet st st')).
  assert (E4 : allFinished P st' n = allFinished P st n).
  { apply forallb_ext'. intro x. unfold isFinished. now rewrite (qt_state _ _ Q). }
  assert (E5 : allWaitingOrFinished P st' n = allWaitingOrFinished P st n).
  { apply forallb_ext'. intro x. unfold isWaitFin. now rewrite (qt_state _ _ Q). }
  assert (E6 : endCond P st' n = endCond P st n).
  { unfold endCond. rewrite (ucondv_quiet st st'), E4, (qt_handle _ _ Q), (qt_ack _ _ Q) by exact Q. reflexivity. }
  assert (E7 : actionCond P st' n = actionCond P st n).
  { unfold actionCond. rewrite E5, (qt_handle _ _ Q), (qt_ack _ _ Q). reflexivity. }
  rewrite E1, E2, E3, E6, E7, (qt_abort _ _ Q), !(ucondv_quiet st st') by exact Q. reflexivity.
Qed.
Lemma decision_quiet st st' n : quiet st st' -> decision st' n = decision st n.
Proof.
  intro Q. unfold decision. rewrite (condsOf_quiet st st' n Q), (qt_state _ _ Q), (qt_fail _ _ Q).
  destruct (parent P n) as [p|]; cbn; [|reflexivity]. now rewrite (qt_state _ _ Q).
Qed.

Lemma getDestNode_decision st x :
  (snd (getDestNode P st x) = true <-> exists s o f, decision st x = DGo s o f) /\
  (snd (getDestNode P st x) = true -> exists s o f, decision st x = DGo s o f /\ next (fst (getDestNode P st x)) x = Some s).
Proof.
  unfold getDestNode, coreGetDest. fold (state st x). fold (decision st x).
  destruct (decision st x) as [|s o f|]; cbn [fst snd].
  - split; [|discriminate]. split; [discriminate|]. intros (s & o & f & H); discriminate.
  - split; [split; [eauto|reflexivity]|]. intros _. exists s, o, f. split; [reflexivity|].
    unfold next. rewrite core_setCore, Nat.eqb_refl. reflexivity.
  - split; [|discriminate]. split; [discriminate|]. intros (s & o & f & H); discriminate.
Qed.

(** Either the decision on the current snapshot, or a node that had been found
    eligible earlier and has now obtained its resources. *)
Definition decidedN st n : Prop := exists nxt, next st n = Some nxt /\
  ((exists o f, decision st n = DGo nxt o f) \/
   (state st n = WAITING /\ nxt = EXECUTING /\ acquiresResources P n = true)).
Definition DJ st : Prop := forall n, In n (e_chg st) -> decidedN st n.

Lemma decidedN_move st st' n : quiet st st' -> next st' n = next st n -> decidedN st n -> decidedN st' n.
Proof.
  intros Q Hn (nxt & A & B). exists nxt. rewrite Hn, (decision_quiet st st' n Q), (qt_state _ _ Q). auto.
Qed.
Lemma DJ_exc st st' x : sameexc x st st' -> quiet st st' -> DJ st -> (In x (e_chg st') -> decidedN st' x) -> DJ st'.
Proof.
  intros S Q HD Hx n Hn. destruct (Nat.eq_dec n x) as [->|Hne]; [auto|].
  apply (decidedN_move st); [exact Q| |apply HD, (s_chg _ _ _ (S n Hne)), Hn].
  unfold next. now rewrite (s_core _ _ _ (S n Hne)).
Qed.

Lemma checkOne_DJ st : Inv P st -> DJ st -> DJ (checkOne P st) /\
  (forall x, hd_error (e_cand st) = Some x -> acquiresResources P x = false ->
     (exists s o f, decision st x = DGo s o f) -> In x (e_chg (checkOne P st))) /\
  (forall x, In x (e_chg st) -> In x (e_chg (checkOne P st))) /\
  (forall x, In x (e_chg (checkOne P st)) -> In x (e_chg st) \/ hd_error (e_cand st) = Some x) /\
  e_cand (checkOne P st) = tl (e_cand st).
Proof.
  intros HI HD. pose proof HI as [HQ HC]. pose proof (quiet_checkOne P st) as Q. unfold checkOne in *.
  destruct (e_cand st) as [|x cs] eqn:Ec.
  { cbn. split; [exact HD|]. split; [discriminate|]. auto. }
  destruct (popCand_spec P st x cs HQ Ec) as (A1 & A2 & A3). cbn zeta in *.
  assert (Q0 : quiet st (setQs (set_queues st cs (e_pend st) (e_chg st) (e_fin st)) x QNone)) by apply quiet_setQs_queues.
  assert (Ec0 : e_cand (setQs (set_queues st cs (e_pend st) (e_chg st) (e_fin st)) x QNone) = cs) by reflexivity.
  assert (Eg0 : e_chg (setQs (set_queues st cs (e_pend st) (e_chg st) (e_fin st)) x QNone) = e_chg st) by reflexivity.
  set (st0 := setQs _ _ _) in *.
  assert (Hc0 : ExecProofs.CInv P st0 x) by (eapply CInv_same; [apply A2|apply HC]).
  assert (Hg0 : ~ In x (e_chg st0)).
  { intro Hi. apply (q_chg _ _ A1) in Hi. unfold isTransQ in Hi. intuition congruence. }
  destruct (getDestNode_spec P st0 x A1 Hc0 Hg0) as (B1 & B2 & B3 & B4 & B5 & B6 & B7 & _).
  destruct (getDestNode_decision st0 x) as [C1 C2].
  pose proof (quiet_getDestNode P st0 x) as Q1.
  assert (Ec1 : e_cand (fst (getDestNode P st0 x)) = cs).
  { unfold getDestNode. destruct (coreGetDest _ _ _ _). exact Ec0. }
  destruct (getDestNode P st0 x) as [st1 go]; cbn [fst snd] in *; cbn zeta in *.
  assert (S1 : sameexc x st st1) by (eapply sameexc_trans; [apply sameall_exc, A2|exact B2]).
  assert (F1 : qs st1 x = QNone) by now rewrite B5.
  clearbody st0.
  assert (Dx : forall s o f, decision st x = DGo s o f -> go = true).
  { intros s o f E. apply C1. exists s, o, f. now rewrite (decision_quiet st st0 x Q0). }
  destruct go.
  - destruct (C2 eq_refl) as (s & o & f & E & Hn).
    assert (Dd : forall st', quiet st0 st' -> next st' x = next st1 x -> decidedN st' x).
    { intros st' Q' Hn'. exists s. split; [congruence|]. left. exists o, f. now rewrite (decision_quiet st0 st' x Q'). }
    destruct (isExecuting (next st1 x) && acquiresResources P x) eqn:Ea.
    + apply andb_true_iff in Ea as [_ Ea]. destruct (addPending_spec P st1 x B1 F1 Ea) as (D1 & D2 & D3 & D4 & D5 & D6 & D7). cbn zeta in *.
      split; [|split; [|split; [|split]]].
      * apply (DJ_exc st _ x); [eapply sameexc_trans; eassumption|exact Q|exact HD|]. intro Hi; exfalso; apply Hg0; cbn in Hi; now rewrite B3 in Hi.
      * intros y Hy. inversion Hy; subst. congruence.
      * intros y Hy. cbn. now rewrite B3, Eg0.
      * intros y. cbn. rewrite B3, Eg0. auto.
      * cbn. exact Ec1.
    + destruct (addStateChange_spec P st1 x B1 F1) as (D1 & D2 & D3 & D4 & D5 & D6 & D7 & D8). cbn zeta in *.
      split; [|split; [|split; [|split]]].
      * apply (DJ_exc st _ x); [eapply sameexc_trans; eassumption|exact Q|exact HD|].
        intros _. apply Dd; [eapply quiet_trans; [exact Q1|apply quiet_addStateChange]|]. unfold next. now rewrite D3.
      * intros y Hy _ _. inversion Hy; subst. rewrite D4, in_snoc; auto.
      * intros y Hy. rewrite D4, in_snoc, B3, Eg0; auto.
      * intros y. rewrite D4, in_snoc, B3, Eg0. cbn. intuition congruence.
      * unfold addStateChange. rewrite F1. cbn. exact Ec1.
  - split; [|split; [|split; [|split]]].
    + apply (DJ_exc st _ x); [exact S1|exact Q|exact HD|]. rewrite B3. tauto.
    + intros y Hy _ (s & o & f & E). inversion Hy; subst. apply Dx in E. discriminate.
    + intros y Hy. now rewrite B3, Eg0.
    + intros y. rewrite B3, Eg0. auto.
    + exact Ec1.
Qed.

Lemma checkEligible_DJ st x : Inv P st -> DJ st -> In x (e_pend st) -> DJ (fst (checkEligible P st x)).
Proof.
  intros HI HD Hx. pose proof HI as [HQ HC].
  destruct (checkEligible_Inv P st x HI Hx) as (_ & _ & _ & S). cbn zeta in S.
  apply (DJ_exc st _ x S (quiet_checkEligible P st x) HD).
  pose proof (pend_not_chg P st x HQ Hx) as Hng.
  destruct (getDestNode_spec P st x HQ (HC x) Hng) as (B1 & B2 & B3 & B4 & B5 & B6 & B7 & _).
  destruct (getDestNode_decision st x) as [C1 C2].
  pose proof (quiet_getDestNode P st x) as Q1. cbn zeta in *.
  assert (Hx1 : In x (e_pend (fst (getDestNode P st x)))) by now rewrite B4.
  destruct (removePending_spec P _ x B1 Hx1) as (D1 & D2 & D3 & D4 & D5 & D6 & D7 & D8). cbn zeta in *.
  destruct (addStateChange_spec P _ x D1 D6) as (E1 & E2 & E3 & E4 & _). cbn zeta in *.
  unfold checkEligible. destruct (qs st x) eqn:Eq; cbn [fst]; try (intro Hi; exfalso; exact (Hng Hi)).
  - destruct (getDestNode P st x) as [st1 go]. cbn [fst snd] in *. destruct go; cbn [negb].
    + destruct (C2 eq_refl) as (s & o & f & E & Hn).
      assert (Dd : forall st', quiet st st' -> next st' x = next st1 x -> decidedN st' x).
      { intros st' Q' Hn'. exists s. split; [congruence|]. left. exists o, f. now rewrite (decision_quiet st st' x Q'). }
      destruct (isExecuting (next st1 x)); cbn [negb].
      * change (e_chg (setQs st1 x QPending)) with (e_chg st1). rewrite B3. intro Hi; exfalso; exact (Hng Hi).
      * intros _. apply Dd.
        -- eapply quiet_trans; [exact Q1|]. eapply quiet_trans; [apply quiet_removePending|].
           eapply quiet_trans; [apply quiet_addStateChange|apply quiet_setQs].
        -- unfold next. rewrite core_setQs, E3, D3. reflexivity.
    + change (e_chg (setQs (removePending P st1 x) x QPending)) with (e_chg (removePending P st1 x)).
      rewrite D4, B3. intro Hi; exfalso; exact (Hng Hi).
  - destruct (getDestNode P st x) as [st1 go]. cbn [fst snd] in *. destruct go; cbn [negb].
    + destruct (C2 eq_refl) as (s & o & f & E & Hn).
      assert (Dd : forall st', quiet st st' -> next st' x = next st1 x -> decidedN st' x).
      { intros st' Q' Hn'. exists s. split; [congruence|]. left. exists o, f. now rewrite (decision_quiet st st' x Q'). }
      destruct (isExecuting (next st1 x)); cbn [negb fst].
      * rewrite B3. intro Hi; exfalso; exact (Hng Hi).
      * intros _. apply Dd.
        -- eapply quiet_trans; [exact Q1|]. eapply quiet_trans; [apply quiet_removePending|]. apply quiet_addStateChange.
        -- unfold next. rewrite E3, D3. reflexivity.
    + cbn [fst]. rewrite D4, B3. intro Hi; exfalso; exact (Hng Hi).
Qed.

Lemma tryOne_DJ st x : Inv P st -> DJ st -> In x (e_pend st) -> DJ (tryOne P st x).
Proof.
  intros HI HD Hx. pose proof HI as [HQ HC].
  apply (DJ_exc st _ x (tryOne_sameexc P st x HQ Hx) (quiet_tryOne P st x) HD).
  pose proof (pend_not_chg P st x HQ Hx) as Hng. pose proof (quiet_tryOne P st x) as Q.
  destruct (c_pend _ _ _ (HC x) Hx) as [Hw He].
  unfold tryOne in *.
  destruct (tryAcquire_spec P st x HQ Hx) as (A1 & A2 & A3 & A4 & A5 & A6 & A7).
  destruct (tryAcquire P st x) as [st1 ok]; cbn [fst snd] in *; cbn zeta in *.
  assert (Hx1 : In x (e_pend st1)) by now rewrite A4.
  destruct ok.
  - destruct (removePending_spec P st1 x A1 Hx1) as (D1 & D2 & D3 & D4 & D5 & D6 & D7 & D8).
    destruct (addStateChange_spec P _ x D1 D6) as (E1 & E2 & E3 & E4 & _). cbn zeta in *.
    intros _. exists EXECUTING. split.
    + unfold next in *. now rewrite E3, D3, A3.
    + right. rewrite (qt_state _ _ Q). split; [exact Hw|]. split; [reflexivity|]. apply (q_pend _ _ HQ x Hx).
  - change (e_chg (setQs st1 x QPending)) with (e_chg st1).
    intro Hi. exfalso. apply (q_chg _ _ A1) in Hi. tauto.
Qed.

Lemma iter_S {A} n (f : A -> A) x : Nat.iter (S n) f x = Nat.iter n f (f x).
Proof. induction n as [|n IH]; cbn; [reflexivity|]. f_equal. exact IH. Qed.

(** ---------- check phase ---------- *)
Lemma checkAll_spec st : Inv P st -> DJ st ->
  let st1 := checkAll P st in
  Inv P st1 /\ DJ st1 /\ quiet st st1 /\ e_cand st1 = [] /\
  (forall x, In x (e_cand st) -> acquiresResources P x = false ->
     (exists s o f, decision st x = DGo s o f) -> In x (e_chg st1)) /\
  (forall x, In x (e_chg st) -> In x (e_chg st1)) /\
  (forall x, In x (e_chg st1) -> In x (e_chg st) \/ In x (e_cand st)).
Proof.
  unfold checkAll. remember (e_cand st) as c eqn:Hc. revert st Hc.
  induction c as [|x c IH]; intros st Hc HI HD; cbn zeta.
  - cbn. split; [exact HI|]. split; [exact HD|]. split; [apply quiet_refl|]. split; [auto|]. split; [intros x []|]. auto.
  - cbn [length]. rewrite iter_S.
    destruct (checkOne_DJ st HI HD) as (A1 & A2 & A3 & A4 & A5). rewrite <- Hc in *. cbn in A5, A2, A4.
    pose proof (checkOne_Inv P st HI) as I1. pose proof (quiet_checkOne P st) as Q1.
    set (s1 := checkOne P st) in *. clearbody s1.
    destruct (IH s1 (eq_sym A5) I1 A1) as (B1 & B2 & B3 & B4 & B5 & B6 & B7). cbn zeta in *.
    split; [exact B1|]. split; [exact B2|]. split; [eapply quiet_trans; eassumption|]. split; [exact B4|].
    split; [|split].
    + intros y [<-|Hy] Ha Hd; [apply B6; apply A2; auto|]. apply B5; auto.
      destruct Hd as (s & o & f & E). exists s, o, f. now rewrite (decision_quiet st s1 y Q1).
    + auto.
    + intros y Hy. apply B7 in Hy as [Hy|Hy]; [|right; now right]. apply A4 in Hy as [Hy|Hy]; [now left|].
      inversion Hy; subst. right; now left.
Qed.

Lemma resolve_DJ st : Inv P st -> DJ st -> DJ (resolve P st).
Proof. apply (resolve_J P DJ); auto using checkEligible_DJ, tryOne_DJ. Qed.

(** resolve only adds to the state change queue, and only pending nodes. *)
Lemma checkEligible_chg st x : Inv P st -> In x (e_pend st) ->
  (forall y, y <> x -> (In y (e_chg (fst (checkEligible P st x))) <-> In y (e_chg st))).
Proof.
  intros HI Hx y Hy. destruct (checkEligible_Inv P st x HI Hx) as (_ & _ & _ & S). cbn zeta in S. apply (s_chg _ _ _ (S y Hy)).
Qed.
Lemma resolve_chg st : Inv P st ->
  (forall y, ~ In y (e_pend st) -> (In y (e_chg (resolve P st)) <-> In y (e_chg st))) /\
  (forall y, In y (e_pend (resolve P st)) -> In y (e_pend st)).
Proof.
  intros HI.
  set (J := fun (s : est W) => (forall y, ~ In y (e_pend st) -> (In y (e_chg s) <-> In y (e_chg st))) /\
                     (forall y, In y (e_pend s) -> In y (e_pend st))).
  apply (resolve_J P J); auto.
  - intros s x A [B1 B2] C. destruct (checkEligible_Inv P s x A C) as (_ & D & _). cbn zeta in D.
    split.
    + intros y Hy. rewrite checkEligible_chg; auto. intros ->. auto.
    + intros y Hy. apply B2. destruct D as [D | D]; rewrite D in Hy; [exact Hy|]. now apply rem1_In in Hy.
  - intros s x A [B1 B2] C. destruct (tryOne_Inv P s x A C) as (_ & D).
    pose proof (tryOne_sameexc P s x (proj1 A) C) as S.
    split.
    + intros y Hy. rewrite (s_chg _ _ _ (S y ltac:(intros ->; auto))). auto.
    + intros y Hy. apply B2. destruct D as [D | D]; rewrite D in Hy; [exact Hy|]. now apply rem1_In in Hy.
  - split; tauto.
Qed.

(** ---------- transition phase ---------- *)
Lemma notify_chg' st n : e_chg (notify st n) = e_chg st.
Proof. apply notify_chg. Qed.

Lemma transitionOne_chg st pre post x cs : e_chg st = x :: cs -> e_chg (transitionOne P st pre post) = cs.
Proof.
  intro Ec. unfold transitionOne. rewrite Ec.
  apply (transition_J P (fun (s : est W) => e_chg s = cs) x); auto.
  - intros s n <-. apply notify_chg.
  - intros s r <-. apply release_raw.
  - intros s s' Hi _ <-. apply (in_chg _ _ Hi).
  - intros s <-. unfold addFinished. destruct (qs s x); reflexivity.
  - set (st0 := setQs _ _ _). destruct (qs st x); rewrite ?notify_chg; reflexivity.
Qed.

Lemma transAll_spec pol st : Inv P st ->
  let st' := transAll P pol st in
  Inv P st' /\ e_chg st' = [] /\ e_pend st' = e_pend st /\
  (forall n, ~ In n (e_chg st) -> state st' n = state st n) /\
  (forall n, In n (e_chg st) -> next st n = Some (state st' n) /\ In (state st' n) (successors (p_type P n) (state st n)) /\
                                state st' n <> state st n).
Proof.
  unfold transAll. remember (e_chg st) as c eqn:Hc. revert st Hc.
  induction c as [|x c IH]; intros st Hc HI; cbn zeta.
  - cbn. split; [exact HI|]. split; [auto|]. split; [reflexivity|]. split; [auto|intros n []].
  - cbn [length]. rewrite iter_S.
    assert (E1 : exists pre post, transPol P pol st = transitionOne P st pre post).
    { unfold transPol. rewrite <- Hc. destruct (pol st x). eauto. }
    destruct E1 as (pre & post & ->). symmetry in Hc.
    destruct (transitionOne_moved P st pre post x c HI Hc) as (nxt & N1 & N2 & N3 & M).
    pose proof (transitionOne_Inv P st pre post HI) as I1.
    pose proof (transitionOne_chg st pre post x c Hc) as C1.
    pose proof (transitionOne_sameexc P st pre post x c Hc) as S1.
    assert (P1 : e_pend (transitionOne P st pre post) = e_pend st).
    { apply (transitionOne_J P (fun (s : est W) => e_pend s = e_pend st) x) with (cs := c); auto.
      * intros s n <-. apply notify_pend.
      * intros s r <-. apply release_raw.
      * intros s s' Hi _ <-. apply (in_pend _ _ Hi).
      * intros s <-. unfold addFinished. destruct (qs s x); reflexivity. }
    set (s1 := transitionOne P st pre post) in *. clearbody s1.
    destruct (IH s1 (eq_sym C1) I1) as (B1 & B2 & B3 & B4 & B5). cbn zeta in *.
    pose proof (q_ndg _ _ (proj1 HI)) as Hnd. rewrite Hc in Hnd. inversion Hnd as [|? ? Hx Hnd']; subst.
    split; [exact B1|]. split; [exact B2|]. split; [congruence|]. split.
    + intros n Hn. rewrite B4, (mv_state _ _ _ _ _ _ M) by (intro; apply Hn; now right).
      destruct (Nat.eqb_spec n x); [|reflexivity]. subst. exfalso. apply Hn; now left.
    + intros n [<-|Hn].
      * rewrite B4, (mv_state _ _ _ _ _ _ M), Nat.eqb_refl by exact Hx. auto.
      * destruct (B5 n Hn) as (C & D & E). assert (Hne : n <> x) by congruence.
        assert (Es : state s1 n = state st n).
        { rewrite (mv_state _ _ _ _ _ _ M). now apply Nat.eqb_neq in Hne as ->. }
        rewrite Es in *. split; [|auto]. unfold next in *. rewrite <- C. now rewrite (s_core _ _ _ (S1 n Hne)).
Qed.

(** ---------- the whole turn ---------- *)
(** The nodes that change state in the turn starting at [st], and the new
    states; PlexilExec.cc:266-340. *)
Definition decideAll st : est W :=
  let st1 := checkAll P st in if isNil (e_pend st1) then st1 else resolve P st1.
Definition turn pol st : est W := transAll P pol (decideAll st).

Lemma decideAll_spec st : Inv P st -> e_chg st = [] ->
  let st2 := decideAll st in
  Inv P st2 /\ quiet st st2 /\
  (forall n, In n (e_chg st2) -> decidedN st2 n) /\
  (forall x, In x (e_cand st) -> acquiresResources P x = false ->
     (exists s o f, decision st x = DGo s o f) -> In x (e_chg st2)).
Proof.
  intros HI Hc. unfold decideAll.
  destruct (checkAll_spec st HI) as (A1 & A2 & A3 & A4 & A5 & A6 & A7). { intros n Hn. rewrite Hc in Hn. destruct Hn. }
  cbn zeta in *. set (st1 := checkAll P st) in *. clearbody st1.
  destruct (isNil (e_pend st1)).
  - auto.
  - split; [now apply resolve_Inv|]. split; [eapply quiet_trans; [exact A3|apply quiet_resolve]|].
    split; [now apply resolve_DJ|].
    intros x Hx Ha Hd. apply (resolve_chg st1 A1); [|now apply A5].
    intro Hp. apply (q_pend _ _ (proj1 A1)) in Hp as [_ Hp]. congruence.
Qed.

Theorem turn_spec pol st : Inv P st -> e_chg st = [] ->
  let st' := turn pol st in
  Inv P st' /\ e_chg st' = [] /\
  (forall n, state st' n <> state st n ->
     In (state st' n) (successors (p_type P n) (state st n)) /\
     ((exists o f, decision st n = DGo (state st' n) o f) \/
      (state st n = WAITING /\ state st' n = EXECUTING /\ acquiresResources P n = true))) /\
  (forall n s o f, In n (e_cand st) -> acquiresResources P n = false -> decision st n = DGo s o f -> state st' n = s).
Proof.
  intros HI Hc. destruct (decideAll_spec st HI Hc) as (A1 & A2 & A3 & A4). cbn zeta. cbn zeta in *. unfold turn.
  set (st2 := decideAll st) in *. clearbody st2.
  destruct (transAll_spec pol st2 A1) as (B1 & B2 & B3 & B4 & B5). cbn zeta in *. set (st' := transAll P pol st2) in *. clearbody st'.
  split; [exact B1|]. split; [exact B2|]. split.
  - intros n Hn. destruct (in_dec Nat.eq_dec n (e_chg st2)) as [Hi|Hi].
    + destruct (B5 n Hi) as (C1 & C2 & C3). rewrite (qt_state _ _ A2) in *. split; [exact C2|].
      destruct (A3 n Hi) as (nxt & D1 & D2). rewrite (decision_quiet st st2 n A2), (qt_state _ _ A2) in D2.
      rewrite C1 in D1. inversion D1; subst nxt. intuition.
    + exfalso. apply Hn. now rewrite B4, (qt_state _ _ A2).
  - intros n s o f Hn Ha Hd. assert (Hi : In n (e_chg st2)) by (apply A4; eauto).
    destruct (B5 n Hi) as (C1 & C2 & C3).
    destruct (A3 n Hi) as (nxt & D1 & [(o' & f' & D2)|(_ & _ & D2)]); [|congruence].
    rewrite (decision_quiet st st2 n A2) in D2. congruence.
Qed.
End Batch.
