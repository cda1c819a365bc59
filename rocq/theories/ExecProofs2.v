(** Invariants of the executive, continued: conflict resolution, transitions,
    external calls. *)
From Verif Require Export ExecProofs.

Section Inv2.
Context {W : Type} (P : plan W).
Implicit Types (st : est W).
Notation QInv := (QInv P). Notation CInv := (CInv P). Notation Inv := (Inv P).

(** setQs to QPending of a node that is neither candidate nor deleted. *)
Lemma setPending_Inv st x :
  Inv st -> qs st x <> QCheck -> qs st x <> QDelete -> Inv (setQs st x QPending).
Proof.
  intros [HQ HC] H1 H2. split; [now apply setPending_QInv|].
  intro n. eapply CInv_same; [|apply HC]. apply sameall_setQs. split; [congruence|contradiction].
Qed.

Lemma pend_not_chg st x : QInv st -> In x (e_pend st) -> ~ In x (e_chg st).
Proof. intros H Hx Hi. apply (q_chg _ _ H) in Hi; tauto. Qed.
Lemma pend_qs st x : QInv st -> In x (e_pend st) -> qs st x <> QCheck /\ qs st x <> QDelete /\ qs st x <> QNone.
Proof.
  intros H Hx. apply (q_pend _ _ H) in Hx. unfold isPendingQ in Hx. intuition congruence.
Qed.

(** Taking a node off the pending queue after getDestState said "no". *)
Lemma drop_pending_Inv st st1 x :
  Inv st -> In x (e_pend st) -> getDestNode P st x = (st1, false) ->
  let st2 := removePending P st1 x in
  Inv st2 /\ qs st2 x = QNone /\ ~ In x (e_pend st2) /\ e_pend st2 = rem1 x (e_pend st) /\
  sameexc x st st2.
Proof.
  intros [HQ HC] Hx Eg. pose proof (pend_not_chg st x HQ Hx) as Hng.
  destruct (pend_qs st x HQ Hx) as (Q1 & Q2 & Q3).
  destruct (getDestNode_spec P st x HQ (HC x) Hng) as (B1 & B2 & B3 & B4 & B5 & B6 & B7 & B8 & B9 & B10 & B11 & B12).
  rewrite Eg in *. cbn [fst snd] in *. cbn zeta in *.
  destruct (removePending_spec P st1 x B1) as (D1 & D2 & D3 & D4 & D5 & D6 & D7 & D8); [now rewrite B4|].
  cbn zeta in *. set (st2 := removePending P st1 x) in *. clearbody st2.
  destruct (B10 eq_refl) as (N1 & N2 & N3).
  assert (Hs : sameexc x st st2) by (eapply sameexc_trans; eassumption).
  split; [split; [exact D1|]|split; [exact D6|split; [exact D8|split; [congruence|exact Hs]]]].
  intro n. destruct (Nat.eq_dec n x) as [->|Hne]; [|eapply CInv_same; [now apply Hs|apply HC]].
  apply (CInv_idle P st); unfold state in *; rewrite ?D3; auto; try congruence.
Qed.

(** Moving a node from the pending to the state change queue because it is now
    going somewhere else. *)
Lemma divert_pending_Inv st st1 x :
  Inv st -> In x (e_pend st) -> getDestNode P st x = (st1, true) -> next st1 x <> Some EXECUTING ->
  let st2 := addStateChange (removePending P st1 x) x in
  Inv st2 /\ qs st2 x = QTransition /\ ~ In x (e_pend st2) /\ e_pend st2 = rem1 x (e_pend st) /\
  sameexc x st st2.
Proof.
  intros [HQ HC] Hx Eg Hn. pose proof (pend_not_chg st x HQ Hx) as Hng.
  destruct (pend_qs st x HQ Hx) as (Q1 & Q2 & Q3).
  destruct (getDestNode_spec P st x HQ (HC x) Hng) as (B1 & B2 & B3 & B4 & B5 & B6 & B7 & B8 & B9 & B10 & B11 & B12).
  rewrite Eg in *. cbn [fst snd] in *. cbn zeta in *.
  destruct (removePending_spec P st1 x B1) as (D1 & D2 & D3 & D4 & D5 & D6 & D7 & D8); [now rewrite B4|].
  cbn zeta in *. set (st2 := removePending P st1 x) in *. clearbody st2.
  destruct (addStateChange_spec P st2 x D1 D6) as (E1 & E2 & E3 & E4 & E5 & E6 & E7 & E8).
  cbn zeta in *. set (st3 := addStateChange st2 x) in *. clearbody st3.
  assert (Hs : sameexc x st st3) by (eapply sameexc_trans; [|eassumption]; eapply sameexc_trans; eassumption).
  split; [split; [exact E1|]|split; [exact E6|split; [exact E7|split; [congruence|exact Hs]]]].
  intro n. destruct (Nat.eq_dec n x) as [->|Hne]; [|eapply CInv_same; [now apply Hs|apply HC]].
  apply (CInv_ready P st); unfold state, next in *; rewrite ?E3, ?D3; auto; try congruence.
  rewrite E4, in_snoc; auto.
Qed.

(** A node still going to EXECUTING stays pending. *)
Lemma keep_pending_Inv st st1 x :
  Inv st -> In x (e_pend st) -> getDestNode P st x = (st1, true) -> next st1 x = Some EXECUTING ->
  Inv st1 /\ e_pend st1 = e_pend st /\ (forall n, qs st1 n = qs st n) /\ sameexc x st st1.
Proof.
  intros [HQ HC] Hx Eg Hn. pose proof (pend_not_chg st x HQ Hx) as Hng.
  destruct (pend_qs st x HQ Hx) as (Q1 & Q2 & Q3).
  destruct (getDestNode_spec P st x HQ (HC x) Hng) as (B1 & B2 & B3 & B4 & B5 & B6 & B7 & B8 & B9 & B10 & B11 & B12).
  rewrite Eg in *. cbn [fst snd] in *. cbn zeta in *.
  split; [split; [exact B1|]|auto].
  intro n. destruct (Nat.eq_dec n x) as [->|Hne]; [|eapply CInv_same; [now apply B2|apply HC]].
  destruct (B12 eq_refl Hn) as (Hw & N1 & N2).
  pose proof (HC x) as []. constructor; rewrite ?B3, ?B4, ?B5, ?B7, ?B8, ?B9; auto; try tauto.
  - intros Hr r Hi. rewrite B6; auto.
Qed.

Lemma checkEligible_Inv st x :
  Inv st -> In x (e_pend st) ->
  let st' := fst (checkEligible P st x) in let ok := snd (checkEligible P st x) in
  Inv st' /\ (e_pend st' = e_pend st \/ e_pend st' = rem1 x (e_pend st)) /\
  (ok = true -> In x (e_pend st')) /\
  sameexc x st st'.
Proof.
  intros HI Hx. pose proof HI as [HQ HC]. unfold checkEligible.
  destruct (qs st x) eqn:Eq;
    try (exfalso; apply (q_pend _ _ HQ) in Hx; unfold isPendingQ in Hx; intuition congruence).
  - (* QPending *) cbn. split; [exact HI|]. split; [auto|]. split; [discriminate|apply sameexc_refl].
  - (* QPendingCheck *)
    destruct (getDestNode P st x) as [st1 go] eqn:Eg. cbn [fst snd].
    destruct go; cbn [negb].
    + destruct (isExecuting (next st1 x)) eqn:Ex; cbn [negb].
      * apply isExecuting_iff in Ex.
        destruct (keep_pending_Inv st st1 x HI Hx Eg Ex) as (A & B & C & D).
        cbn zeta. split; [apply setPending_Inv; [exact A| |]; rewrite C, Eq; discriminate|].
        split; [left; exact B|]. split; [discriminate|].
        eapply sameexc_trans; [exact D|]. apply sameall_exc, sameall_setQs. rewrite C, Eq; split; discriminate.
      * assert (Hn : next st1 x <> Some EXECUTING) by (intro He; rewrite He in Ex; discriminate).
        destruct (divert_pending_Inv st st1 x HI Hx Eg Hn) as (A & B & C & D & E).
        cbn zeta. split; [apply setPending_Inv; [exact A| |]; rewrite B; discriminate|].
        split; [right; exact D|]. split; [discriminate|].
        eapply sameexc_trans; [exact E|]. apply sameall_exc, sameall_setQs. rewrite B; split; discriminate.
    + destruct (drop_pending_Inv st st1 x HI Hx Eg) as (A & B & C & D & E).
      cbn zeta. split; [apply setPending_Inv; [exact A| |]; rewrite B; discriminate|].
      split; [right; exact D|]. split; [discriminate|].
      eapply sameexc_trans; [exact E|]. apply sameall_exc, sameall_setQs. rewrite B; split; discriminate.
  - (* QPendingTry *) cbn. split; [exact HI|]. split; [auto|]. split; [auto|apply sameexc_refl].
  - (* QPendingTryCheck *)
    destruct (getDestNode P st x) as [st1 go] eqn:Eg. destruct go; cbn [negb].
    + destruct (isExecuting (next st1 x)) eqn:Ex; cbn [negb fst snd].
      * apply isExecuting_iff in Ex.
        destruct (keep_pending_Inv st st1 x HI Hx Eg Ex) as (A & B & C & D).
        cbn zeta. split; [exact A|]. split; [auto|]. split; [now rewrite B|exact D].
      * assert (Hn : next st1 x <> Some EXECUTING) by (intro He; rewrite He in Ex; discriminate).
        destruct (divert_pending_Inv st st1 x HI Hx Eg Hn) as (A & B & C & D & E).
        cbn zeta. split; [exact A|]. split; [auto|]. split; [discriminate|exact E].
    + destruct (drop_pending_Inv st st1 x HI Hx Eg) as (A & B & C & D & E).
      cbn [fst snd]; cbn zeta. split; [exact A|]. split; [auto|]. split; [discriminate|exact E].
Qed.

Lemma tryOne_Inv st x :
  Inv st -> In x (e_pend st) ->
  Inv (tryOne P st x) /\
  (e_pend (tryOne P st x) = e_pend st \/ e_pend (tryOne P st x) = rem1 x (e_pend st)).
Proof.
  intros [HQ HC] Hx. unfold tryOne.
  destruct (tryAcquire_spec P st x HQ Hx) as (A1 & A2 & A3 & A4 & A5 & A6 & A7).
  destruct (tryAcquire P st x) as [st1 ok]; cbn [fst snd] in *; cbn zeta in *.
  assert (Hx1 : In x (e_pend st1)) by now rewrite A4.
  destruct (pend_qs st1 x A1 Hx1) as (Q1 & Q2 & Q3).
  destruct (pend_qs st x HQ Hx) as (Q1' & Q2' & Q3').
  pose proof (HC x) as HCx. destruct (c_pend _ _ _ HCx Hx) as [Hw Hn].
  pose proof (pend_not_chg st x HQ Hx) as Hng.
  destruct ok.
  - destruct (removePending_spec P st1 x A1 Hx1) as (D1 & D2 & D3 & D4 & D5 & D6 & D7 & D8).
    cbn zeta in *. set (st2 := removePending P st1 x) in *. clearbody st2.
    destruct (addStateChange_spec P st2 x D1 D6) as (E1 & E2 & E3 & E4 & E5 & E6 & E7 & E8).
    cbn zeta in *. set (st3 := addStateChange st2 x) in *. clearbody st3.
    assert (Hs : sameexc x st st3) by (eapply sameexc_trans; [|eassumption]; eapply sameexc_trans; eassumption).
    split; [split; [exact E1|]|right; congruence].
    intro n. destruct (Nat.eq_dec n x) as [->|Hne]; [|eapply CInv_same; [now apply Hs|apply HC]].
    apply (CInv_ready P st); unfold state, next in *; rewrite ?E3, ?D3, ?A3; auto; try congruence.
    + rewrite E4, in_snoc; auto.
    + exists EXECUTING. split; [exact Hn|].
      destruct (c_clear _ _ _ HCx Hng) as [N1 N2]. pose proof (c_coh _ _ _ HCx) as Hco.
      unfold state in *. rewrite Hw in *. rewrite N1, N2. unfold go_ok; cbn. cbn in Hco. intuition congruence.
    + intros _ r Hr. rewrite E8, D7. now apply A7.
    + intros r Hh. rewrite E8, D7. apply A7; auto. eapply (q_holder _ _ HQ); eassumption.
  - split; [|left; exact A4].
    split; [apply setPending_QInv; assumption|].
    intro n. destruct (Nat.eq_dec n x) as [->|Hne].
    + assert (Hcore : core (setQs st1 x QPending) x = core st x) by (rewrite core_setQs; apply A3).
      pose proof (del_none P _ _ HCx Q2') as Hd.
      destruct HCx. unfold state, next in *. constructor; unfold state, next; rewrite ?Hcore; cbn; rewrite ?A4, ?A5; auto.
      * rewrite Hw; discriminate.
      * tauto.
      * rewrite qs_setQs, Nat.eqb_refl. split; [discriminate|tauto].
    + eapply CInv_same; [|eapply CInv_same; [now apply A2|apply HC]].
      apply sameall_setQs. split; [discriminate|contradiction].
Qed.

Lemma tryAll_Inv l : forall st, Inv st -> NoDup l -> (forall x, In x l -> In x (e_pend st)) ->
  Inv (fold_left (tryOne P) l st) /\
  (forall x, ~ In x l -> (In x (e_pend (fold_left (tryOne P) l st)) <-> In x (e_pend st))).
Proof.
  induction l as [|x l IH]; cbn; intros st HI Hnd Hl; [tauto|].
  inversion Hnd as [|? ? Hx Hnd']; subst.
  destruct (tryOne_Inv st x HI (Hl x (or_introl eq_refl))) as [A B].
  destruct (IH (tryOne P st x) A Hnd') as [C D].
  - intros y Hy. assert (y <> x) by congruence.
    destruct B as [-> | ->]; [auto|]. apply rem1_In_other; auto.
  - split; [exact C|]. intros y Hy. rewrite D by tauto.
    destruct B as [-> | ->]; [tauto|]. apply rem1_In_other. intro; subst; tauto.
Qed.

Lemma NoDup_app_l {A} (l l' : list A) : NoDup (l ++ l') -> NoDup l /\ NoDup l' /\ (forall x, In x l -> ~ In x l').
Proof.
  induction l as [|y l IH]; cbn; intro H; [split; [constructor|]; split; [exact H|intros x []]|].
  inversion H as [|? ? Hy Hl]; subst. destruct (IH Hl) as (A1 & A2 & A3). rewrite in_app_iff in Hy.
  split; [constructor; tauto|]. split; [exact A2|]. intros x [<-|Hx]; [tauto|]. now apply A3.
Qed.

(** [gather] keeps every collected node on the pending queue and never yields
    more work than it was given. *)
Lemma gather_Inv prio l : forall st acc,
  Inv st -> NoDup (acc ++ l) -> (forall x, In x acc \/ In x l -> In x (e_pend st)) ->
  let '(st', acc', rest) := gather P st prio l acc in
  Inv st' /\ NoDup (acc' ++ rest) /\ (forall x, In x acc' \/ In x rest -> In x (e_pend st')) /\
  length rest <= length l /\
  (forall x l', l = x :: l' -> p_prio P x = prio -> length rest < length l).
Proof.
  induction l as [|x l IH]; intros st acc HI Hnd Hl; cbn [gather].
  - split; [exact HI|]. split; [exact Hnd|]. split; [exact Hl|]. split; [cbn; lia|]. congruence.
  - destruct (Z.eqb_spec (p_prio P x) prio) as [Hp|Hp].
    2:{ split; [exact HI|]. split; [exact Hnd|]. split; [exact Hl|]. split; [cbn; lia|].
        intros x' l' He; inversion He; subst; congruence. }
    assert (Hxp : In x (e_pend st)) by (apply Hl; right; now left).
    destruct (checkEligible_Inv st x HI Hxp) as (A & B & C & D).
    destruct (checkEligible P st x) as [st1 ok]; cbn [fst snd] in *; cbn zeta in *.
    set (acc1 := if ok then acc ++ [x] else acc).
    assert (Hx : ~ In x acc /\ ~ In x l).
    { apply NoDup_remove in Hnd. rewrite in_app_iff in Hnd. tauto. }
    assert (Hnd1 : NoDup (acc1 ++ l)).
    { unfold acc1. destruct ok; [now rewrite <- app_assoc|]. now apply NoDup_remove_1 in Hnd. }
    assert (Hl1 : forall y, In y acc1 \/ In y l -> In y (e_pend st1)).
    { intros y Hy. destruct (Nat.eq_dec y x) as [->|Hne].
      - destruct Hy as [Hy|Hy]; [|tauto]. unfold acc1 in Hy. destruct ok; [now apply C|tauto].
      - assert (Hy' : In y (e_pend st)).
        { apply Hl. destruct Hy as [Hy|Hy]; [|right; now right]. left. unfold acc1 in Hy.
          destruct ok; [|exact Hy]. rewrite in_snoc in Hy. intuition congruence. }
        destruct B as [-> | ->]; [exact Hy'|]. apply rem1_In_other; auto. }
    destruct (memb x (e_pend st1)) eqn:Em.
    + specialize (IH st1 acc1 A Hnd1 Hl1). destruct (gather P st1 prio l acc1) as [[st' acc'] rest].
      destruct IH as (I1 & I2 & I3 & I4 & I5). split; [exact I1|]. split; [exact I2|]. split; [exact I3|].
      split; [cbn; lia|]. intros; cbn; lia.
    + split; [exact A|]. rewrite app_nil_r. split.
      { apply NoDup_app_l in Hnd1. apply Hnd1. }
      split. { intros y [Hy|[]]. apply Hl1; now left. }
      split; [cbn; lia|]. intros; cbn; lia.
Qed.

Lemma resolveLoop_Inv fuel : forall st l,
  Inv st -> NoDup l -> (forall x, In x l -> In x (e_pend st)) -> length l <= fuel ->
  Inv (resolveLoop P fuel st l).
Proof.
  induction fuel as [|f IH]; intros st l HI Hnd Hl Hlen; destruct l as [|x l'].
  - exact HI.
  - cbn in Hlen; lia.
  - exact HI.
  - cbn [resolveLoop].
    pose proof (gather_Inv (p_prio P x) (x :: l') st [] HI Hnd) as G.
    destruct (gather P st (p_prio P x) (x :: l') []) as [[st1 acc] rest].
    destruct G as (G1 & G2 & G3 & G4 & G5). { intros y [[]|Hy]; auto. }
    destruct (NoDup_app_l _ _ G2) as (N1 & N2 & N3).
    destruct (tryAll_Inv acc st1 G1 N1) as [T1 T2]. { intros; apply G3; auto. }
    apply IH; auto.
    + intros y Hy. apply T2; [|apply G3; auto]. intro Hy'. exact (N3 y Hy' Hy).
    + specialize (G5 x l' eq_refl eq_refl). cbn in *. lia.
Qed.

Lemma resolve_Inv st : Inv st -> Inv (resolve P st).
Proof.
  intros HI. unfold resolve. apply resolveLoop_Inv; auto. apply (q_ndp _ _ (proj1 HI)).
Qed.

(** ---------- transition ---------- *)
Lemma popChg_spec st x cs :
  QInv st -> e_chg st = x :: cs ->
  let st0 := setQs (set_queues st (e_cand st) (e_pend st) cs (e_fin st)) x QNone in
  QInv st0 /\ sameexc x st st0 /\ qs st0 x = QNone /\ (forall n, core st0 n = core st n) /\
  ~ In x (e_chg st0) /\ ~ In x (e_pend st0) /\ (forall r, holder st0 r = holder st r).
Proof.
  intros H Ec. cbn zeta. pose proof H as [].
  set (st0 := setQs _ _ _).
  assert (HQ : forall n, qs st0 n = if Nat.eqb n x then QNone else qs st n).
  { intro n. unfold st0. rewrite qs_setQs. reflexivity. }
  assert (Hin : In x (e_chg st)) by (rewrite Ec; now left).
  destruct (q_chg x Hin) as [Hqx Hp].
  assert (Hxc : ~ In x cs) by (rewrite Ec in q_ndg; inversion q_ndg; auto).
  assert (Hg : ~ In x (e_cand st)) by (rewrite q_cand; unfold isTransQ in Hqx; intuition congruence).
  assert (Hf : ~ In x (e_fin st)) by (intro Hi; apply q_fin in Hi; unfold isTransQ in Hqx; intuition congruence).
  split; [|split; [|split; [rewrite HQ, Nat.eqb_refl; reflexivity|]]].
  - constructor; cbn; auto.
    + rewrite Ec in q_ndg; inversion q_ndg; auto.
    + intro n. rewrite HQ. destruct (Nat.eqb_spec n x); subst; [intuition congruence|apply q_cand].
    + intros n Hn. rewrite HQ. destruct (Nat.eqb_spec n x); subst; [contradiction|auto].
    + intros n. rewrite HQ. destruct (Nat.eqb_spec n x); subst; [intuition congruence|auto].
    + intros n. rewrite HQ. destruct (Nat.eqb_spec n x); subst; [unfold isTransQ; intuition congruence|].
      intro Hn; apply q_trans in Hn; rewrite Ec in Hn. destruct Hn; [congruence|assumption].
    + intros n Hn. rewrite HQ. destruct (Nat.eqb_spec n x); subst; [contradiction|].
      apply q_chg. rewrite Ec; now right.
    + intros n Hn. rewrite HQ. destruct (Nat.eqb_spec n x); subst; [contradiction|auto].
  - intros n Hne. constructor; unfold holder; cbn; try tauto.
    + apply (core_setQs (set_queues st (e_cand st) (e_pend st) cs (e_fin st))).
    + rewrite Ec; cbn; intuition congruence.
    + rewrite HQ. destruct (Nat.eqb_spec n x); [congruence|tauto].
  - split. { intro n; apply (core_setQs (set_queues st (e_cand st) (e_pend st) cs (e_fin st))). }
    split; [exact Hxc|]. split; [exact Hp|reflexivity].
Qed.

(** Facts about the node in the middle of its transition. *)
Record mid st (x : nat) : Prop := {
  m_q : QInv st;
  m_oth : forall n, n <> x -> CInv st n;
  m_free : qs st x = QNone \/ qs st x = QCheck;
  m_chg : ~ In x (e_chg st);
  m_pend : ~ In x (e_pend st) }.

Lemma mid_of_free st x : QInv st -> (forall n, n <> x -> CInv st n) -> qs st x = QNone \/ qs st x = QCheck -> mid st x.
Proof.
  intros HQ Ho Hf. constructor; auto.
  - intro Hi. apply (q_chg _ _ HQ) in Hi. unfold isTransQ in Hi; intuition congruence.
  - intro Hi. apply (q_pend _ _ HQ) in Hi. unfold isPendingQ in Hi; intuition congruence.
Qed.

Lemma mid_sameexc st st' x : mid st x -> QInv st' -> sameexc x st st' -> (qs st' x = QNone \/ qs st' x = QCheck) -> mid st' x.
Proof.
  intros [] HQ Hs Hf. apply mid_of_free; auto. intros n Hn. eapply CInv_same; [now apply Hs|auto].
Qed.

Lemma mid_notifyAll st x l : mid st x -> mid (notifyAll st l) x.
Proof.
  intros M. eapply mid_sameexc; [exact M| | |].
  - apply notifyAll_QInv, (m_q _ _ M).
  - apply sameall_exc, notifyAll_same.
  - apply notifyAll_free, (m_free _ _ M).
Qed.

Lemma leaveResources_spec st x s nxt :
  mid st x ->
  let st' := leaveResources P st x s nxt in
  mid st' x /\ (forall n, core st' n = core st n) /\
  ((running nxt = true \/ nxt = INACTIVE \/ nxt = WAITING) -> st' = st).
Proof.
  intros M. unfold leaveResources.
  assert (R1 : forall st, mid st x -> forall r, mid (release st r x) x /\ (forall n, core (release st r x) n = core st n)).
  { intros s1 M1 r. destruct (release_spec P s1 r x (m_q _ _ M1)) as (A1 & A2 & A3 & A4 & A5 & A6 & A7 & A8).
    cbn zeta in *. split; [|exact A3]. eapply mid_sameexc; [exact M1|exact A1|exact A2|].
    rewrite A7; [apply (m_free _ _ M1)|]. destruct (m_free _ _ M1); auto. }
  assert (R2 : forall st, mid st x -> forall rs, mid (releaseAll st x rs) x /\ (forall n, core (releaseAll st x rs) n = core st n)).
  { intros s1 M1 rs. destruct (releaseAll_spec P rs x s1 (m_q _ _ M1)) as (A1 & A2 & A3 & A4 & A5 & A6 & A7 & A8).
    cbn zeta in *. split; [|exact A3]. eapply mid_sameexc; [exact M1|exact A1|exact A2|].
    rewrite A7; [apply (m_free _ _ M1)|]. destruct (m_free _ _ M1); auto. }
  cbn zeta. destruct nxt; try (split; [exact M|split; [reflexivity|reflexivity]]).
  - (* ITERATION_ENDED *)
    split; [|split; [|cbn; intuition congruence]].
    + destruct (isWaiting s); [exact M|]. destruct (isAssignment P x).
      * apply R2, R1, M.
      * apply R2, M.
    + intro n. destruct (isWaiting s); [reflexivity|]. destruct (isAssignment P x).
      * rewrite (proj2 (R2 _ (proj1 (R1 _ M (RVar (p_var P x)))) _)). apply R1, M.
      * apply R2, M.
  - (* FINISHED *)
    set (st1 := if isAssignment P x && nstate_eqb s FAILING then release st (RVar (p_var P x)) x else st).
    assert (H1 : mid st1 x /\ (forall n, core st1 n = core st n)).
    { unfold st1. destruct (isAssignment P x && nstate_eqb s FAILING); [apply R1, M|]. split; [exact M|reflexivity]. }
    clearbody st1. destruct H1 as [M1 C1].
    split; [|split; [|cbn; intuition congruence]].
    + destruct (isWaiting s); [apply R2, M1|exact M1].
    + intro n. destruct (isWaiting s); [|apply C1]. rewrite (proj2 (R2 _ M1 _)). apply C1.
Qed.

(** Steps that touch none of the things the invariant talks about. *)
Record inert st st' : Prop := {
  in_core : forall n, core st' n = core st n; in_qs : forall n, qs st' n = qs st n;
  in_res : e_res st' = e_res st; in_cand : e_cand st' = e_cand st; in_pend : e_pend st' = e_pend st;
  in_chg : e_chg st' = e_chg st; in_fin : e_fin st' = e_fin st; in_errs : e_errs st' = e_errs st }.
Lemma inert_QInv st st' : inert st st' -> QInv st -> QInv st'.
Proof.
  intros [] []. constructor; unfold waiters, holder in *; rewrite ?in_res0, ?in_cand0, ?in_pend0, ?in_chg0, ?in_fin0, ?in_errs0; auto;
  intro n; rewrite ?in_qs0; auto.
Qed.
Lemma inert_same st st' : inert st st' -> sameall st st'.
Proof.
  intros [] n. constructor; unfold holder; rewrite ?in_res0, ?in_pend0, ?in_chg0, ?in_qs0; auto; tauto.
Qed.
Lemma inert_mid st st' x : inert st st' -> mid st x -> mid st' x.
Proof.
  intros Hi M. eapply mid_sameexc; [exact M| | |].
  - eapply inert_QInv; [exact Hi|apply (m_q _ _ M)].
  - apply sameall_exc, inert_same, Hi.
  - rewrite (in_qs _ _ Hi). apply (m_free _ _ M).
Qed.
Lemma inert_refl st : inert st st.
Proof. constructor; reflexivity. Qed.
Lemma inert_trans a b c : inert a b -> inert b c -> inert a c.
Proof. intros [] []; constructor; intros; try congruence. Qed.
Lemma inert_Inv st st' : inert st st' -> Inv st -> Inv st'.
Proof.
  intros Hi [HQ HC]. split; [eapply inert_QInv; eassumption|].
  intro n. eapply CInv_same; [apply (inert_same _ _ Hi)|apply HC].
Qed.

Lemma failEnqueue_inert st x nxt : inert st (failEnqueue P st x nxt).
Proof. unfold failEnqueue. destruct nxt; try apply inert_refl. destruct (p_type P x); try apply inert_refl; constructor; reflexivity. Qed.
Lemma execEnqueue_inert st x nxt : inert st (execEnqueue P st x nxt).
Proof. unfold execEnqueue. destruct nxt; try apply inert_refl. destruct (p_type P x); try apply inert_refl; constructor; reflexivity. Qed.
Lemma setAcks_inert st x a b h : inert st (setAcks st x a b h).
Proof. constructor; try reflexivity; intro n; [apply core_setAcks|apply qs_setAcks]. Qed.
Lemma resetAcks_inert st x nxt : inert st (resetAcks st x nxt).
Proof. unfold resetAcks. destruct nxt; try apply inert_refl; apply setAcks_inert. Qed.
Lemma set_world_inert st w : inert st (set_world st w).
Proof. constructor; reflexivity. Qed.
Lemma log_inert st e : inert st (log st e).
Proof. constructor; reflexivity. Qed.
Lemma set_out_inert st a b c d e : inert st (set_out st a b c d e).
Proof. constructor; reflexivity. Qed.
Lemma set_plans_inert st a b : inert st (set_plans st a b).
Proof. constructor; reflexivity. Qed.

Lemma notify_kids_gen (f : est W -> nat -> bool) l : forall st, QInv st ->
  let st' := fold_left (fun st c => if f st c then notify st c else st) l st in
  QInv st' /\ sameall st st'.
Proof.
  induction l as [|c l IH]; cbn; intros st HQ; [split; [exact HQ|apply sameall_refl]|].
  destruct (f st c).
  - destruct (IH (notify st c) (notify_QInv P st c HQ)) as [A B]. split; [exact A|].
    eapply sameall_trans; [apply notify_same|exact B].
  - apply IH, HQ.
Qed.
Lemma notifyKids_Q st x nxt : QInv st -> QInv (notifyKids P st x nxt) /\ sameall st (notifyKids P st x nxt).
Proof.
  intros HQ. unfold notifyKids. destruct (p_type P x); try (split; [exact HQ|apply sameall_refl]).
  destruct nxt; try (split; [exact HQ|apply sameall_refl]);
  apply (notify_kids_gen (fun st c => nstate_eqb (state st c) _)); exact HQ.
Qed.

(** addFinishedRootNode on a node that is not in the pending or state change queue. *)
Lemma addFinished_spec st x :
  QInv st -> qs st x = QNone \/ qs st x = QCheck ->
  let st' := addFinished st x in
  QInv st' /\ sameexc x st st' /\ (forall n, core st' n = core st n) /\
  qs st' x = QDelete /\ e_chg st' = e_chg st /\ e_pend st' = e_pend st /\
  (forall r, holder st' r = holder st r).
Proof.
  intros HQ Hf. cbn zeta. pose proof HQ as [].
  assert (Hp : ~ In x (e_pend st)) by (intro Hi; apply q_pend in Hi; unfold isPendingQ in Hi; intuition congruence).
  assert (Hg : ~ In x (e_chg st)) by (intro Hi; apply q_chg in Hi; unfold isTransQ in Hi; intuition congruence).
  assert (Hfi : ~ In x (e_fin st)) by (intro Hi; apply q_fin in Hi; intuition congruence).
  assert (Hfin : exists cs, NoDup cs /\ ~ In x cs /\ (forall n, n <> x -> (In n cs <-> In n (e_cand st))) /\
     addFinished st x = set_queues (setQs st x QDelete) cs (e_pend st) (e_chg st) (e_fin st ++ [x])).
  { unfold addFinished. destruct Hf as [Hf|Hf]; rewrite Hf.
    - exists (e_cand st). split; [assumption|]. split; [rewrite q_cand; congruence|]. split; [tauto|reflexivity].
    - exists (rem1 x (e_cand st)). split; [now apply rem1_NoDup|]. split; [now apply rem1_gone|].
      split; [intros n Hn; now apply rem1_In_other|reflexivity]. }
  destruct Hfin as (cs & N1 & N2 & N3 & ->).
  assert (HQs : forall n, qs (set_queues (setQs st x QDelete) cs (e_pend st) (e_chg st) (e_fin st ++ [x])) n
               = if Nat.eqb n x then QDelete else qs st n).
  { intro n. change (qs (setQs st x QDelete) n = if Nat.eqb n x then QDelete else qs st n). apply qs_setQs. }
  split; [|split; [|split; [|split; [|auto]]]].
  - constructor; cbn; auto.
    + now apply NoDup_snoc.
    + intro n. rewrite HQs. destruct (Nat.eqb_spec n x); subst; [intuition congruence|]. rewrite N3 by assumption. apply q_cand.
    + intros n Hn. rewrite HQs. destruct (Nat.eqb_spec n x); subst; [contradiction|auto].
    + intros n. rewrite HQs. destruct (Nat.eqb_spec n x); subst; [intuition congruence|auto].
    + intros n. rewrite HQs. unfold isTransQ. destruct (Nat.eqb_spec n x); subst; [intuition congruence|auto].
    + intros n Hn. rewrite HQs. destruct (Nat.eqb_spec n x); subst; [contradiction|auto].
    + intros n. rewrite HQs, in_snoc. destruct (Nat.eqb_spec n x); subst; [auto|]. intros [Hn|Hn]; [auto|congruence].
  - intros n Hn. constructor; cbn; try tauto.
    + apply (core_setQs st x QDelete n).
    + rewrite HQs. destruct (Nat.eqb_spec n x); [congruence|tauto].
  - intro n. apply (core_setQs st x QDelete n).
  - rewrite HQs, Nat.eqb_refl. reflexivity.
Qed.

Lemma setCore_mid st x k : mid st x ->
  mid (setCore st x k) x /\ core (setCore st x k) x = k /\ (forall n, n <> x -> core (setCore st x k) n = core st n).
Proof.
  intros M. split; [|split].
  - eapply mid_sameexc; [exact M| | |].
    + pose proof (m_q _ _ M) as []. constructor; auto; intros n; rewrite ?qs_setCore; auto.
    + intros n Hn. constructor; unfold holder; cbn; rewrite ?core_setCore, ?qs_setCore; try tauto.
      destruct (Nat.eqb_spec n x); [congruence|reflexivity].
    + rewrite qs_setCore. apply (m_free _ _ M).
  - rewrite core_setCore, Nat.eqb_refl; reflexivity.
  - intros n Hn. rewrite core_setCore. destruct (Nat.eqb_spec n x); [congruence|reflexivity].
Qed.

(** After the transition the node satisfies the invariant again. *)
Lemma transition_Inv st x pre post :
  mid st x -> ready (p_type P x) (core st x) ->
  has_state (p_type P x) (state st x) -> coherent (state st x) (k_out (core st x)) (k_fail (core st x)) ->
  (running (state st x) = true \/ next st x = Some EXECUTING -> forall r, In r (needs P x) -> holder st r = Some x) ->
  Inv (transition P st x pre post).
Proof.
  intros M Hrd Hhs Hco Hhold. unfold transition.
  destruct Hrd as (nxt & Hn & Hgo).
  unfold next at 1. rewrite Hn.
  destruct Hgo as (G1 & G2 & G3 & G4). fold (state st x) in G1, G2.
  destruct (nstate_eqb nxt (state st x)) eqn:E1; [apply nstate_eqb_eq in E1; contradiction|].
  assert (Hin : inb nxt (successors (p_type P x) (state st x)) = true).
  { unfold inb. apply existsb_exists. exists nxt. split; [exact G1|apply nstate_eqb_refl]. }
  rewrite Hin.
  set (s := state st x) in *.
  (* pre-notifications *)
  pose proof (mid_notifyAll st x pre M) as M1.
  assert (S1 : sameall st (notifyAll st pre)) by apply notifyAll_same.
  set (st1 := notifyAll st pre) in *. clearbody st1.
  (* resources *)
  destruct (leaveResources_spec st1 x s nxt M1) as (M2 & C2 & R2). cbn zeta in *.
  set (st2 := leaveResources P st1 x s nxt) in *. 
  assert (H2 : running nxt = true -> forall r, In r (needs P x) -> holder st2 r = Some x).
  { intros Hr r Hi. rewrite R2 by auto. apply (s_hold _ _ _ (S1 x)). apply Hhold; [|exact Hi].
    destruct nxt; try discriminate Hr.
    - right. unfold next; exact Hn.
    - left. destruct s; cbn in G1; try reflexivity; destruct (p_type P x); cbn in G1; intuition congruence.
    - left. destruct s; cbn in G1; try reflexivity; destruct (p_type P x); cbn in G1; intuition congruence. }
  assert (C2' : core st2 x = core st x) by (rewrite C2; apply (s_core _ _ _ (S1 x))).
  clearbody st2.
  pose proof (failEnqueue_inert st2 x nxt) as I3.
  set (st3 := failEnqueue P st2 x nxt) in *. clearbody st3.
  pose proof (inert_mid _ _ x I3 M2) as M3.
  assert (C3 : core st3 x = core st x) by (rewrite (in_core _ _ I3); exact C2').
  rewrite C3.
  destruct (setCore_mid st3 x (coreTransition (core st x)) M3) as (M4 & C4 & O4).
  assert (H4 : running nxt = true -> forall r, In r (needs P x) -> holder (setCore st3 x (coreTransition (core st x))) r = Some x).
  { intros Hr r Hi. unfold holder; cbn. rewrite (in_res _ _ I3). now apply H2. }
  set (st4 := setCore st3 x (coreTransition (core st x))) in *. clearbody st4.
  (* the new core *)
  unfold coreTransition in C4. rewrite Hn in C4. change (k_state (core st x)) with s in C4. rewrite E1 in C4.
  change (k_state (core st x)) with s in G4. unfold orElse in G4. cbn in G4.
  assert (K : state st4 x = nxt /\ has_state (p_type P x) (state st4 x) /\
     coherent (state st4 x) (k_out (core st4 x)) (k_fail (core st4 x)) /\
     k_nextOut (core st4 x) = NO_OUTCOME /\ k_nextFail (core st4 x) = NO_FAILURE).
  { unfold state. rewrite C4. cbn. unfold state in s. fold s. auto 6. }
  clear C4 G4. destruct K as (K1 & K2 & K3 & K4 & K5).
  (* setState *)
  assert (Hfin : Inv (afterSetState P st4 x nxt)).
  { assert (Hlive : nxt = FINISHED /\ parent P x = None \/ ~ (parent P x = None /\ nxt = FINISHED)).
    { destruct (parent P x); [right; intuition congruence|]. destruct nxt; auto; right; intuition congruence. }
    unfold afterSetState. destruct Hlive as [[-> Hp]|Hlive].
    - rewrite Hp. destruct (addFinished_spec st4 x (m_q _ _ M4) (m_free _ _ M4)) as (A1 & A2 & A3 & A4 & A5 & A6 & A7).
      cbn zeta in *. set (st5 := addFinished st4 x) in *. clearbody st5. split; [exact A1|].
      intro n. destruct (Nat.eq_dec n x) as [->|Hne]; [|eapply CInv_same; [now apply A2|now apply (m_oth _ _ M4)]].
      unfold state in *. constructor; unfold state, next; rewrite ?A3, ?A4, ?A5, ?A6; auto.
      + intro Hi; exfalso; exact (m_chg _ _ M4 Hi).
      + intro Hi; exfalso; exact (m_pend _ _ M4 Hi).
      + rewrite K1; discriminate.
      + intro Hi; exfalso; exact (m_chg _ _ M4 Hi).
      + rewrite K1; tauto.
    - assert (Hnot : Inv (notify st4 x)).
      { pose proof (notify_same st4 x) as S5. split; [apply notify_QInv, (m_q _ _ M4)|].
        intro n. eapply CInv_same; [apply S5|]. destruct (Nat.eq_dec n x) as [->|Hne]; [|now apply (m_oth _ _ M4)].
        constructor; auto.
        + intro Hi; exfalso; exact (m_chg _ _ M4 Hi).
        + intro Hi; exfalso; exact (m_pend _ _ M4 Hi).
        + rewrite K1; apply H4.
        + intro Hi; exfalso; exact (m_chg _ _ M4 Hi).
        + rewrite K1. pose proof (m_free _ _ M4). split; [intuition congruence|tauto]. }
      destruct (parent P x); [exact Hnot|]. destruct nxt; try exact Hnot. tauto. }
  set (st5 := afterSetState P st4 x nxt) in *. clearbody st5. clear - Hfin.
  destruct Hfin as [HQ5 HC5].
  destruct (notifyKids_Q st5 x nxt HQ5) as [HQ6 S6].
  set (st6 := notifyKids P st5 x nxt) in *. clearbody st6.
  assert (H6 : Inv st6) by (split; [exact HQ6|]; intro n; eapply CInv_same; [apply S6|apply HC5]).
  pose proof (resetAcks_inert st6 x nxt) as I7.
  pose proof (execEnqueue_inert (resetAcks st6 x nxt) x nxt) as I7'.
  set (st7 := execEnqueue P (resetAcks st6 x nxt) x nxt) in *. clearbody st7.
  pose proof (inert_Inv _ _ (inert_trans _ _ _ I7 I7') H6) as H7.
  pose proof (inert_Inv _ _ (set_world_inert st7 (p_effect P (e_world st7) x s nxt)) H7) as H8.
  pose proof (inert_Inv _ _ (log_inert _ (EvTrans x s nxt)) H8) as [HQ9 HC9].
  split; [apply notifyAll_QInv, HQ9|]. intro n. eapply CInv_same; [apply notifyAll_same|apply HC9].
Qed.

Lemma transitionOne_Inv st pre post : Inv st -> Inv (transitionOne P st pre post).
Proof.
  intros HI. pose proof HI as [HQ HC]. unfold transitionOne. destruct (e_chg st) as [|x cs] eqn:Ec; [exact HI|].
  destruct (popChg_spec st x cs HQ Ec) as (A1 & A2 & A3 & A4 & A5 & A6 & A7). cbn zeta in *.
  set (st0 := setQs _ _ _) in *. clearbody st0.
  assert (M0 : mid st0 x).
  { apply mid_of_free; auto. intros n Hn. eapply CInv_same; [now apply A2|apply HC]. }
  set (st1 := match qs st x with QTransitionCheck => notify st0 x | _ => st0 end).
  assert (H1 : mid st1 x /\ sameall st0 st1).
  { unfold st1. destruct (qs st x); try (split; [exact M0|apply sameall_refl]).
    split; [|apply notify_same]. apply (mid_notifyAll st0 x [x] M0). }
  clearbody st1. destruct H1 as [M1 S1].
  assert (Hin : In x (e_chg st)) by (rewrite Ec; now left).
  pose proof (HC x) as HCx.
  assert (C1 : core st1 x = core st x) by (rewrite (s_core _ _ _ (S1 x)); apply A4).
  apply transition_Inv; unfold state, next in *; rewrite ?C1; auto.
  - apply (c_ready _ _ _ HCx Hin).
  - apply (c_has _ _ _ HCx).
  - apply (c_coh _ _ _ HCx).
  - intros Hr r Hi. apply (s_hold _ _ _ (S1 x)). rewrite A7.
    destruct Hr as [Hr|Hr]; [apply (c_run _ _ _ HCx Hr r Hi)|apply (c_go _ _ _ HCx Hin Hr r Hi)].
Qed.

Lemma notifyAll_Inv st l : Inv st -> Inv (notifyAll st l).
Proof.
  intros [HQ HC]. split; [now apply notifyAll_QInv|].
  intro n. eapply CInv_same; [apply notifyAll_same|apply HC].
Qed.

Lemma fold_inert {A} (f : est W -> A -> est W) l : (forall st a, inert st (f st a)) -> forall st, inert st (fold_left f l st).
Proof.
  intros Hf. induction l as [|a l IH]; intro st; cbn; [apply inert_refl|].
  eapply inert_trans; [apply Hf|apply IH].
Qed.

Lemma deleteFinished_Inv st : Inv st -> Inv (deleteFinished st).
Proof.
  intros HI. unfold deleteFinished.
  assert (I1 : inert st (fold_left (fun st n => log (set_plans st (filter (fun m => negb (Nat.eqb m n)) (e_plans st))
                                              (e_deleted st)) (EvDelete n)) (e_fin st) st)).
  { apply fold_inert. intros. eapply inert_trans; [apply set_plans_inert|apply log_inert]. }
  set (st1 := fold_left _ (e_fin st) st) in *. clearbody st1.
  pose proof (inert_Inv _ _ I1 HI) as [HQ HC].
  eapply inert_Inv; [apply set_plans_inert|]. split.
  - destruct HQ. constructor; auto; cbn; [constructor|tauto].
  - intro n. eapply CInv_same; [|apply HC]. constructor; unfold holder; cbn; tauto.
Qed.

Variable env : nat -> W -> W.

Lemma act_Inv st a : Inv st -> Inv (act env P st a).
Proof.
  intros HI. destruct a; cbn [act].
  - apply checkOne_Inv, HI.
  - apply resolve_Inv, HI.
  - apply transitionOne_Inv, HI.
  - unfold assignOne. destruct (e_asg st) as [|n l]; [exact HI|]. apply notifyAll_Inv.
    eapply inert_Inv; [apply log_inert|]. destruct (nstate_eqb _ _).
    + eapply inert_Inv; [apply setAcks_inert|]. eapply inert_Inv; [apply set_world_inert|].
      eapply inert_Inv; [apply set_out_inert|]. exact HI.
    + eapply inert_Inv; [apply set_world_inert|]. eapply inert_Inv; [apply set_out_inert|]. exact HI.
  - unfold retractOne. destruct (e_ret st) as [|n l]; [exact HI|]. apply notifyAll_Inv.
    eapply inert_Inv; [apply log_inert|]. destruct (nstate_eqb _ _).
    + eapply inert_Inv; [apply setAcks_inert|]. eapply inert_Inv; [apply set_world_inert|].
      eapply inert_Inv; [apply set_out_inert|]. exact HI.
    + eapply inert_Inv; [apply set_world_inert|]. eapply inert_Inv; [apply set_out_inert|]. exact HI.
  - unfold outbound. eapply inert_Inv; [apply set_out_inert|].
    do 3 (eapply inert_Inv; [apply fold_inert; intros; apply log_inert|]). exact HI.
  - destruct (parent P root); [exact HI|]. destruct (_ && _); [|exact HI].
    apply notifyAll_Inv. apply (notifyAll_Inv _ [root]). eapply inert_Inv; [apply set_plans_inert|exact HI].
  - apply notifyAll_Inv. eapply inert_Inv; [apply set_world_inert|exact HI].
  - destruct (p_type P n); try exact HI. destruct (running (state st n)); [|exact HI].
    apply notifyAll_Inv. eapply inert_Inv; [apply setAcks_inert|exact HI].
  - destruct (p_type P n); try exact HI. destruct (running (state st n)); [|exact HI].
    apply notifyAll_Inv. eapply inert_Inv; [apply setAcks_inert|exact HI].
  - destruct (p_type P n); try exact HI. destruct (nstate_eqb (state st n) FAILING); [|exact HI].
    apply notifyAll_Inv. eapply inert_Inv; [apply setAcks_inert|exact HI].
  - apply deleteFinished_Inv, HI.
Qed.

Lemma e0_Inv w : Inv (e0 w).
Proof.
  split.
  - constructor; try (cbn; constructor); unfold qs, e0, isTransQ; cbn; intros; try tauto; try discriminate; try (intuition congruence).
  - intro n. constructor; cbn; auto; try tauto; try discriminate.
    split; [discriminate|intuition congruence].
Qed.

Lemma run_Inv_from l : forall st, Inv st -> Inv (run env P l st).
Proof. induction l as [|a l IH]; cbn; intros st HI; [exact HI|]. apply IH, act_Inv, HI. Qed.

Theorem run_Inv l w : Inv (run env P l (e0 w)).
Proof. apply run_Inv_from, e0_Inv. Qed.

End Inv2.
