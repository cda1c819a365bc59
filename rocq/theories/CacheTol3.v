(** Change lookups: every operation keeps the invariant and no value changes silently (2). *)
From Verif Require Import ValueModel RealModel RealProofs CacheModel CacheSpec OrderProps CacheProofs CacheProofs2 CacheFresh CacheProofs3 CacheProofs4 CacheProofs5 CacheProofs6 CacheTol CacheTol2.
Open Scope Z_scope.

Definition tf (x : lk) := (l_thr x, l_cv x, l_ent x, l_tol x, l_tolconst x, l_tola x).
Lemma G_tf q l w w' : tf (w_lk w' l) = tf (w_lk w l) -> (forall e, l_ent (w_lk w l) = Some e -> e_val (w_ent w' e) = e_val (w_ent w e)) -> G q l w -> G q l w'.
Proof.
  unfold G, P, lkTol, Hx, lkTol, entKnown. intros X E. inversion X as [[A B C D F I]]. rewrite A, B, C, D, F, I. intros [[T H] [HX Q]]. split; [|split].
  - split; auto. destruct (l_thr (w_lk w l)); auto. destruct H as (c & e & ec & Y1 & Y2 & Y3 & Y4). exists c, e, ec. rewrite E; auto.
  - intros Y1 Y2 e He. rewrite E by auto. auto.
  - intros t c e ec T1 T2 T3 T4. rewrite E in T4 by auto. eauto.
Qed.
Lemma P_tf l w w' : (l_thr (w_lk w' l), l_cv (w_lk w' l), l_ent (w_lk w' l)) = (l_thr (w_lk w l), l_cv (w_lk w l), l_ent (w_lk w l)) -> okTol (l_tol (w_lk w' l)) ->
  (forall e, l_ent (w_lk w l) = Some e -> e_val (w_ent w' e) = e_val (w_ent w e)) -> P l w -> P l w'.
Proof.
  unfold P. intros X OT E. inversion X as [[A B C]]. rewrite A, B, C. intros [T H]. split; auto.
  destruct (l_thr (w_lk w l)); auto. destruct H as (c & e & ec & Y1 & Y2 & Y3 & Y4). exists c, e, ec. rewrite E; auto.
Qed.
Lemma P_cv l w : P l w -> l_thr (w_lk w l) = None -> l_cv (w_lk w l) = None.
Proof. intros [_ H] E. now rewrite E in H. Qed.
Lemma P_ent l w : P l w -> l_ent (w_lk w l) = None -> l_thr (w_lk w l) = None.
Proof. intros [_ H] E. destruct (l_thr (w_lk w l)); auto. destruct H as (c & e & ec & _ & X & _). congruence. Qed.
Lemma P_none l w : okTol (l_tol (w_lk w l)) -> l_thr (w_lk w l) = None -> l_cv (w_lk w l) = None -> P l w.
Proof. intros. now apply G_none. Qed.

Lemma invalidate_self l w w' : l_onch (w_lk w l) = true -> P l w -> invalidateOld w l = Some w' ->
  l_thr (w_lk w' l) = None /\ l_cv (w_lk w' l) = None /\ exists d, w_tr w' = w_tr w ++ d.
Proof.
  intros O HP H. unfold invalidateOld in H. ob H. rewrite O in H. inversion H; subst; clear H. rename w0 into w1.
  assert (U : l_thr (w_lk w1 l) = l_thr (w_lk w l) /\ l_cv (w_lk w1 l) = l_cv (w_lk w l) /\ exists d, w_tr w1 = w_tr w ++ d).
  { unfold unregister in E. destruct (l_reg (w_lk w l)).
    - ob E. ob E. inversion E; subst; clear E. destruct (unregisterE_lk _ _ _ _ _ E1) as [L [d D]]. cbn. rewrite updf_same, L. cbn. eauto.
    - inversion E; subst. split; auto. split; auto. exists []. now rewrite app_nil_r. }
  destruct U as (U1 & U2 & d & D). unfold dropThr. cbn [setLkEnt setLk w_lk]. rewrite updf_same. cbn [l_thr].
  destruct (l_thr (w_lk w1 l)) eqn:TH; cbn; rewrite ?updf_same; cbn; (split; [auto|split; [auto|exists d; exact D]]).
  rewrite U2. apply P_cv; auto.
Qed.
Lemma setEnt_tr w l st k en : w_tr (setLkEnt w l st k en) = w_tr w. Proof. reflexivity. Qed.
Lemma register_new l w s ans w' : l_onch (w_lk w l) = true -> lkActive (w_lk w l) = true -> l_reg (w_lk w l) = false ->
  okTol (l_tol (w_lk w l)) -> l_thr (w_lk w l) = None -> l_cv (w_lk w l) = None -> 
  (snd (ensureE w s) < w_next (fst (ensureE w s)))%nat ->
  ensureRegistered (setLkEnt (fst (ensureE w s)) l s true (Some (snd (ensureE w s)))) l ans = Some w' ->
  G false l w' /\ exists d, w_tr w' = w_tr w ++ d /\ (pubs l d = 0%nat -> l_thr (w_lk w' l) = None).
Proof.
  intros O A RG OT TH CV LT H. set (e := snd (ensureE w s)) in *.
  set (w3 := setLkEnt _ l s true (Some e)) in *.
  assert (X3 : w_lk w3 l = setEn s true (Some e) (w_lk w l)). { unfold w3. cbn. rewrite updf_same, ensureE_lk. reflexivity. }
  assert (T3 : w_tr w3 = w_tr w). { unfold w3. cbn. unfold ensureE. destruct (findKey s (w_map w)); reflexivity. }
  change (w_next (fst (ensureE w s))) with (w_next w3) in LT. clearbody w3 e.
  unfold ensureRegistered in H. rewrite X3 in H. cbn [setEn l_reg l_ent l_st] in H. rewrite RG in H. cbn [obind] in H. ob H. inversion H; subst; clear H.
  destruct (register_self false l w3 e s ans w0) as (_ & G2 & d & D & Z); auto; try (rewrite X3; auto; fail).
  { apply G_none; rewrite X3; auto. }
  split. { apply (G_tf false l w0); auto. unfold setLkReg. cbn. rewrite updf_same. reflexivity. }
  exists d. cbn. rewrite D, T3, updf_same. split; auto. intros X. cbn. apply Z; auto. now rewrite X3.
Qed.

(** The lookup reacts to a change of its own parameters or tolerance. *)
Lemma hci_self l w ans p : l_onch (w_lk w l) = true -> lkActive (w_lk w l) = true -> pre w l -> P l w ->
  handleChangeInternal w l ans = Some p ->
  P l (fst p) /\ exists d, w_tr (fst p) = w_tr w ++ d /\
  (snd p = true -> pubs l d = 0%nat -> l_thr (w_lk (fst p) l) = None) /\
  (snd p = false -> tf (w_lk (fst p) l) = tf (w_lk w l) /\ (forall e, e_val (w_ent (fst p) e) = e_val (w_ent w e))) /\
  (forall s, l_env (w_lk w l) = Some s -> l_st (w_lk w l) = s -> l_known (w_lk w l) = true -> snd p = false) /\
  (l_env (w_lk w l) = None -> l_known (w_lk w l) = false -> snd p = false).
Proof.
  intros O A PR HP H. pose proof (hci_spec w l ans p PR H) as [VI _].
  destruct PR as (V & R & OK & K & C & RG & EN). unfold handleChangeInternal in H.
  assert (SAMEL : forall st k w', w_lk w' l = setEn st k (l_ent (w_lk w l)) (w_lk w l) -> tf (w_lk w' l) = tf (w_lk w l)) by (intros st k w' ->; reflexivity).
  destruct (l_env (w_lk w l)) as [s|] eqn:EV.
  - set (w1 := setLkEnt w l (l_st (w_lk w l)) true (l_ent (w_lk w l))) in *.
    assert (X1 : w_lk w1 l = setEn (l_st (w_lk w l)) true (l_ent (w_lk w l)) (w_lk w l)) by (cbn; apply updf_same).
    assert (P1 : P l w1). { apply (P_tf l w); auto; rewrite X1; auto. apply HP. }
    assert (V1 : inv (regs w1) w1) by (apply inv_regs_setLk; auto).
    ob H. rename w0 into w2. cbv zeta in H. ob H. inversion H; subst p; clear H. cbn [fst snd] in *.
    assert (NEW : forall d0, l_onch (w_lk w2 l) = true -> lkActive (w_lk w2 l) = true -> l_reg (w_lk w2 l) = false -> okTol (l_tol (w_lk w2 l)) ->
      l_thr (w_lk w2 l) = None -> l_cv (w_lk w2 l) = None -> inv (regs w2) w2 -> w_tr w2 = w_tr w ++ d0 ->
      G false l w0 /\ exists d, w_tr w0 = w_tr w ++ d /\ (pubs l d = 0%nat -> l_thr (w_lk w0 l) = None)).
    { intros d0 Y1 Y2 Y3 Y4 Y5 Y6 Y7 Y8.
      assert (Hs : okState s) by apply OK. destruct (ensureE_spec (regs w2) w2 s Y7 Hs) as [Z1 [Z2 [Z3 _]]].
      assert (LT : (snd (ensureE w2 s) < w_next (fst (ensureE w2 s)))%nat). { pose proof Z3 as Z3'. apply findKey_in in Z3' as [k [I _]]. eapply i_lt; eauto. }
      destruct (register_new l w2 s ans w0 Y1 Y2 Y3 Y4 Y5 Y6 LT E0) as (Q1 & d & Q2 & Q3). split; auto. exists (d0 ++ d). rewrite Q2, Y8, app_assoc. split; auto.
      rewrite pubs_app. intros X. apply Q3. lia. }
    destruct (l_known (w_lk w l)) eqn:KN; cbn [andb negb orb] in *.
    + destruct EN as [Z1 [e [Z2 Z3]]]. destruct (state_eq s (l_st (w_lk w l))) eqn:SE; cbn [negb] in *.
      * inversion E; subst w2; clear E.
        assert (F : findKey s (w_map w) = Some e).
        { rewrite <- Z3. apply (inv_find_cong (regs w) w); auto. apply OK. apply Z1. apply state_eq_key; auto. }
        unfold ensureE in E0. change (w_map w1) with (w_map w) in E0. rewrite F in E0. cbn [fst snd] in E0.
        unfold ensureRegistered in E0. cbn [setLkEnt setLk w_lk] in E0. rewrite !updf_same in E0. cbn [l_reg] in E0. rewrite X1 in E0. cbn [setEn l_reg] in E0. rewrite RG in E0.
        inversion E0; subst w0; clear E0.
        assert (X3 : w_lk (setLkEnt w1 l s true (Some e)) l = setEn s true (Some e) (w_lk w l)). { unfold setLkEnt. cbn [setLk w_lk]. rewrite updf_same, X1. reflexivity. }
        split. { apply (P_tf l w); auto; rewrite X3; cbn; rewrite ?Z2; auto. apply HP. }
        exists []. rewrite app_nil_r. split; auto. split; [discriminate|]. split. { intros _. rewrite X3. split; auto. unfold tf, setEn. cbn. now rewrite Z2. }
        split; auto.
      * pose proof (invalidate_self l w1 w2) as IV. rewrite X1 in IV. destruct IV as (I1 & I2 & d0 & D0); auto.
        destruct (invalidate_spec _ _ _ V1 E) as (Q1 & Q2 & Q3 & Q4 & Q5 & Q6). rewrite X1 in Q3. apply core_fields in Q3. cbn in Q3.
        destruct (NEW d0) as (G4 & d & D & Z); auto.
        { destruct Q3 as (-> & _). auto. }
        { destruct Q3 as (Y1 & Y2 & Y3 & Y4 & _). unfold lkActive. rewrite Y4. exact A. }
        { tauto. }
        { destruct Q3 as (Y1 & Y2 & Y3 & Y4 & Y5 & Y6 & Y7 & Y8 & Y9 & Y10 & _). rewrite Y10. apply HP. }
        split; [apply G4|]. exists d. split; auto. split; auto. split; [discriminate|]. split.
        -- intros s' X Y _. assert (SS : s' = s) by congruence. rewrite Y, SS in SE. destruct C19_state_equality as [RF _]. rewrite RF in SE; [discriminate|]. apply OK.
        -- discriminate.
    + inversion E; subst w2; clear E.
      assert (TH : l_thr (w_lk w l) = None) by (apply P_ent; auto).
      destruct (NEW []) as (G4 & d & D & Z); auto; try (rewrite X1; cbn; auto).
      { apply HP. } { apply (P_cv l w); auto. } { now rewrite app_nil_r. }
      split; [apply G4|]. exists d. split; auto. split; auto. split; [discriminate|]. split; discriminate.
  - set (w1 := setLkEnt w l (l_st (w_lk w l)) false (l_ent (w_lk w l))) in *.
    assert (X1 : w_lk w1 l = setEn (l_st (w_lk w l)) false (l_ent (w_lk w l)) (w_lk w l)) by (cbn; apply updf_same).
    assert (P1 : P l w1). { apply (P_tf l w); auto; rewrite X1; auto. apply HP. }
    ob H. inversion H; subst p; clear H. cbn [fst snd] in *.
    destruct (l_known (w_lk w l)) eqn:KN.
    + pose proof (invalidate_self l w1 w0) as IV. rewrite X1 in IV. destruct IV as (I1 & I2 & d0 & D0); auto.
      assert (V1 : inv (regs w1) w1) by (apply inv_regs_setLk; auto).
      destruct (invalidate_spec _ _ _ V1 E) as (Q1 & Q2 & Q3 & _). rewrite X1 in Q3. apply core_fields in Q3. cbn in Q3.
      destruct Q3 as (Y1 & Y2 & Y3 & Y4 & Y5 & Y6 & Y7 & Y8 & Y9 & Y10 & _).
      split. { apply P_none; auto. rewrite Y10. apply HP. }
      exists d0. split; auto. split; auto. split; [discriminate|]. split; [discriminate|auto].
    + inversion E; subst w0; clear E. split; auto. exists []. rewrite app_nil_r. split; auto. split; [discriminate|]. split; [|split; auto].
      rewrite X1. auto.
Qed.

Definition okTolOp (o : op) : Prop := match o with OTol _ v => okTol v | _ => True end.
Definition GA (l : nat) (w : world) : Prop := G (lkActive (w_lk w l)) l w /\ (lkActive (w_lk w l) = false -> l_thr (w_lk w l) = None).
Lemma INV_listedO w l : INV w -> l_onch (w_lk w l) = true -> (0 < l_cnt (w_lk w l))%nat -> listedO l w.
Proof.
  intros [V R] O A. split; auto. split. { apply Nat.ltb_lt; auto. } intros e He.
  destruct (R l) as (_ & _ & D & E & _ & G). destruct (G e He) as [G1 _]. split; auto.
  specialize (E A). destruct (l_env (w_lk w l)) as [s|] eqn:EV; [|destruct E; congruence].
  destruct E as [_ [_ [e' [E1 E2]]]]. assert (e' = e) by congruence. subst.
  rewrite (i_occ _ _ V). 2:{ eapply findKey_live; eauto. }
  unfold regs. rewrite (proj2 D) by (split; auto; discriminate). rewrite (proj2 (at_ent_spec _ _) He). auto.
Qed.
Lemma G_publish q l m w : G q l w -> G q l (publish w m).
Proof. intros H. unfold publish. destruct lkActive; auto. Qed.
Lemma rdo_publish l m w : rdo (publish w m) l = rdo w l.
Proof. unfold publish. destruct lkActive; auto. Qed.
Lemma lk_publish m w : w_lk (publish w m) = w_lk w. Proof. unfold publish. destruct lkActive; auto. Qed.
Lemma updI_lk w l vc p : updateInternal w l vc = Some p -> core (w_lk (fst p) l) = core (w_lk w l).
Proof. intros H. apply (q_core _ _ _ (quietT_updI' _ _ _ _ H) l). Qed.

(** The lookup's own change handling, given what handleChangeInternal did. *)
Lemma hc_self l w ans w' : l_onch (w_lk w l) = true -> lkActive (w_lk w l) = true -> pre w l -> P l w ->
  handleChange w l ans = Some w' ->
  G true l w' /\ exists d, w_tr w' = w_tr w ++ d /\
   (pubs l d = 0%nat -> eqv (rdo w l) (rdo w' l) \/ (l_thr (w_lk w l) <> None /\ vknown (lkTol (w_lk w l)) = false)).
Proof.
  intros O A PR HP H. unfold handleChange in H. rewrite A, O in H. ob H. ob H. inversion H; subst; clear H.
  destruct (hci_self l w ans p O A PR HP E) as (P2 & d & D & X1 & X2 & _).
  pose proof (hci_spec _ _ _ _ PR E) as [VI _].
  destruct (UI true l (fst p) (snd p) p0 P2 E0) as (U1 & U2 & U3 & _).
  pose proof (quietT_updI' _ _ _ _ E0) as Q.
  destruct (q_tr _ _ _ (quiet_updI _ _ _ _ E0)) as [d2 [D2 Z2]]. apply (pubs_T l) in Z2.
  assert (A2 : lkActive (w_lk (fst p0) l) = true).
  { rewrite (core_active _ _ (q_core _ _ _ Q l)). pose proof (handleChangeInternal_stat _ _ _ _ l E) as S. inversion S. unfold lkActive. rewrite H5. exact A. }
  destruct (snd p0) eqn:SP.
  - split; [now apply G_publish|]. exists (d ++ d2 ++ [Pub l]). rewrite pub_active, D2, D, !app_assoc by auto. split; auto. rewrite !pubs_app, pubs_pub. lia.
  - split; auto. exists (d ++ d2). rewrite D2, D, app_assoc. split; auto. rewrite pubs_app. intros Z.
    destruct (snd p) eqn:S1.
    + specialize (X1 eq_refl). specialize (U3 eq_refl). discriminate U3. apply X1. lia.
    + destruct (X2 eq_refl) as [Y1 Y2]. assert (TL : lkTol (w_lk (fst p) l) = lkTol (w_lk w l)). { unfold lkTol. inversion Y1. congruence. }
      destruct (U2 eq_refl) as [->|(_ & Y3 & Y4)].
      * left. assert (rdo (fst p) l = rdo w l) as ->; [|apply eqv_refl]. unfold rdo, rd. inversion Y1 as [[W1 W2 W3 W4 W5 W6]]. rewrite W2, W3.
        destruct (l_cv (w_lk w l)); auto. destruct (l_ent (w_lk w l)); auto. unfold entV. now rewrite Y2.
      * right. inversion Y1 as [[W1 W2 W3 W4 W5 W6]]. rewrite TL in Y4. split; congruence.
Qed.
Lemma ensureE_lt w s : inv (regs w) w -> (snd (ensureE w s) < w_next (fst (ensureE w s)))%nat.
Proof.
  intros V. unfold ensureE. destruct (findKey s (w_map w)) eqn:F; cbn; [|lia].
  apply findKey_in in F as [k [I _]]. eapply i_lt; eauto.
Qed.
Lemma ensureRegistered_self q l w ans w' e : l_onch (w_lk w l) = true -> lkActive (w_lk w l) = true -> l_ent (w_lk w l) = Some e -> (e < w_next w)%nat ->
  G q l w -> ensureRegistered w l ans = Some w' -> G q l w'.
Proof.
  intros O A EN LT Gl H. unfold ensureRegistered in H. destruct (l_reg (w_lk w l)); [inversion H; subst; auto|].
  rewrite EN in H. cbn [obind] in H. ob H. inversion H; subst; clear H.
  destruct (register_self q l w e _ ans w0 O A EN LT Gl E) as (_ & G2 & _).
  apply (G_tf q l w0); auto. unfold setLkReg. cbn. rewrite updf_same. reflexivity.
Qed.
Lemma ha_self l w ans w' : l_onch (w_lk w l) = true -> lkActive (w_lk w l) = true -> okTol (l_tol (w_lk w l)) -> l_thr (w_lk w l) = None -> l_cv (w_lk w l) = None ->
  inv (regs w) w -> (forall e, l_ent (w_lk w l) = Some e -> (e < w_next w)%nat) -> handleActivate w l ans = Some w' -> G false l w'.
Proof.
  intros O A OT TH CV V LT H. unfold handleActivate in H.
  set (w1 := if l_const (w_lk w l) then w else _) in H.
  assert (X1 : exists st k, w_lk w1 l = setEn st k (l_ent (w_lk w l)) (w_lk w l)).
  { unfold w1. destruct (l_const _).
    - exists (l_st (w_lk w l)), (l_known (w_lk w l)). unfold setEn. now destruct (w_lk w l).
    - destruct (l_env (w_lk w l)); cbn; rewrite updf_same; unfold setEn; eauto. }
  assert (N1 : w_next w1 = w_next w /\ w_map w1 = w_map w). { unfold w1. destruct (l_const _); auto. destruct (l_env _); auto. }
  clearbody w1. destruct X1 as (st & k & X1). destruct N1 as [N1 M1]. cbv zeta in H. rewrite X1 in H. cbn [setEn l_ent l_known l_st] in H.
  set (w2 := match l_ent (w_lk w l) with Some _ => w1 | None => _ end) in H.
  assert (X2 : (exists st' k' en, w_lk w2 l = setEn st' k' en (w_lk w l)) /\ forall e, l_ent (w_lk w2 l) = Some e -> (e < w_next w2)%nat).
  { unfold w2. destruct (l_ent (w_lk w l)) eqn:EN.
    - split. { rewrite X1. eauto. } rewrite X1. cbn. intros e He. inversion He; subst. rewrite N1. auto.
    - destruct k.
      + split. { cbn. rewrite updf_same, ensureE_lk, X1. unfold setEn. cbn. eauto. }
        unfold setLkEnt. cbn [setLk w_lk w_next]. rewrite updf_same. cbn. intros e He. inversion He. unfold ensureE. rewrite M1.
        destruct (findKey st (w_map w)) eqn:F; cbn.
        * rewrite N1. apply findKey_in in F as [k [I _]]. eapply i_lt; eauto.
        * lia.
      + split. { rewrite X1. eauto. } rewrite X1. cbn. discriminate. }
  clearbody w2. destruct X2 as [(st' & k' & en & X2) L2].
  assert (G2 : G false l w2). { apply G_none; rewrite X2; auto. }
  rewrite X2 in H. cbn [setEn l_ent] in H. destruct en as [e|]; [|inversion H; subst; auto].
  eapply (ensureRegistered_self false l w2 ans w' e); eauto; try (rewrite X2; auto). apply L2. rewrite X2. auto.
Qed.
Lemma GA_act l w : lkActive (w_lk w l) = true -> G true l w -> GA l w.
Proof. intros A H. split; rewrite A; auto. discriminate. Qed.
Lemma GA_in l w : lkActive (w_lk w l) = false -> okTol (l_tol (w_lk w l)) -> l_thr (w_lk w l) = None -> l_cv (w_lk w l) = None -> GA l w.
Proof. intros A B C D. split; auto. rewrite A. now apply G_none. Qed.
Theorem step_T o w w' l : INV w -> okOp o -> okTolOp o -> step o w = Some w' -> l_onch (w_lk w l) = true -> GA l w ->
  GA l w' /\ ((0 < l_cnt (w_lk w l))%nat -> (0 < l_cnt (w_lk w' l))%nat -> exists d, w_tr w' = w_tr w ++ d /\
    (pubs l d = 0%nat -> eqv (rdo w l) (rdo w' l) \/ (exists v, o = OTol l v /\ vknown v = false))).
Proof.
  intros V OK OKT H O [Gl IN].
  assert (USE : K true l w w' -> stat (w_lk w' l) = stat (w_lk w l) -> GA l w' /\ ((0 < l_cnt (w_lk w l))%nat -> (0 < l_cnt (w_lk w' l))%nat -> exists d, w_tr w' = w_tr w ++ d /\
    (pubs l d = 0%nat -> eqv (rdo w l) (rdo w' l) \/ (exists v, o = OTol l v /\ vknown v = false)))).
  { intros (d & D & K1 & K2) S. assert (CN : l_cnt (w_lk w' l) = l_cnt (w_lk w l)) by (inversion S; auto).
    destruct (lkActive (w_lk w l)) eqn:A.
    - destruct (K2 (INV_listedO w l V O (proj1 (Nat.ltb_lt _ _) A)) Gl) as (L2 & G2 & Z). split.
      + apply GA_act; auto. unfold lkActive in *. rewrite CN. congruence.
      + intros _ _. exists d. split; auto. intros X. left. apply Z; auto.
    - specialize (K1 O eq_refl). specialize (IN eq_refl). split.
      + apply GA_in; rewrite K1; auto; [apply Gl|apply P_cv; auto; apply Gl].
      + unfold lkActive in A. apply Nat.ltb_ge in A. lia. }
  pose proof (step_stat o w w' l H) as SS.
  destruct o as [m ans|m|m s ans|m v|s u| |s]; cbn [step okTolOp] in *.
  - destruct (Nat.eq_dec m l) as [->|N]; [|apply USE; [eapply K_opActivate; eauto|rewrite (proj1 SS); cbn; now rewrite (proj2 (Nat.eqb_neq m l) N)]].
    destruct (Nat.eq_dec (l_cnt (w_lk w l)) 0) as [Z0|NZ].
    + split; [|lia]. unfold opActivate in H. rewrite Z0 in H. cbn [Nat.eqb] in H. rewrite O in H. ob H. ob H. ob H. inversion H; subst w'; clear H.
      assert (A0 : lkActive (w_lk w l) = false) by (unfold lkActive; now rewrite Z0). specialize (IN A0).
      set (w1 := setLkCnt w l 1) in *.
      assert (X1 : w_lk w1 l = setCnt 1 (w_lk w l)) by (cbn; apply updf_same).
      assert (G0 : G false l w0).
      { apply (ha_self l w1 ans w0); auto; try (rewrite X1; auto).
        - apply Gl.
        - apply P_cv; auto. apply Gl.
        - apply inv_regs_setLk; auto. apply V.
        - intros e He. destruct V as [_ R]. destruct (R l) as (_ & _ & _ & _ & _ & Q). apply (Q e He). }
      assert (PT : P l (setLkTola w0 l true)).
      { apply (P_tf l w0); auto; try (cbn; rewrite updf_same; auto). apply G0. apply G0. }
      destruct (UI true l _ true p PT E0) as (U1 & _).
      assert (AA : forall x, stat x = stat (setCnt (S (l_cnt (w_lk w l))) (w_lk w l)) -> lkActive x = true).
      { intros x S. inversion S as [[S1 S2 S3 S4 S5 S6]]. unfold lkActive. now rewrite S6. }
      destruct SS as [SS _]. cbn in SS. rewrite Nat.eqb_refl in SS.
      apply GA_act; [apply (AA _ SS)|]. destruct b; auto. now apply G_publish.
    + unfold opActivate in H. rewrite (proj2 (Nat.eqb_neq _ _) NZ) in H. inversion H; subst w'; clear H.
      split.
      * apply GA_act. { unfold lkActive. cbn. rewrite updf_same. reflexivity. } assert (lkActive (w_lk w l) = true) as A1 by (apply Nat.ltb_lt; lia). rewrite A1 in Gl. apply (G_tf true l w); auto. cbn. rewrite updf_same. reflexivity.
      * intros _ _. exists []. rewrite app_nil_r. split; auto. intros _. left. unfold rdo, rd. cbn. rewrite updf_same. apply eqv_refl.
  - destruct (Nat.eq_dec m l) as [->|N]; [|apply USE; [eapply K_opDeactivate; eauto|rewrite (proj1 SS); cbn; now rewrite (proj2 (Nat.eqb_neq m l) N)]].
    unfold opDeactivate in H. destruct (l_cnt (w_lk w l)) as [|n] eqn:C; [discriminate|]. cbv zeta in H.
    destruct (Nat.eqb_spec n 0) as [->|NZ].
    + destruct SS as [SS _]. cbn in SS. rewrite Nat.eqb_refl in SS.
      assert (CW : l_cnt (w_lk w' l) = 0%nat). { inversion SS as [[S1 S2 S3 S4 S5 S6]]. rewrite S6, C. auto. }
      assert (OT : okTol (l_tol (w_lk w' l))). { inversion SS as [[S1 S2 S3 S4 S5 S6]]. rewrite S5. apply Gl. }
      split; [|lia]. ob H. inversion H; subst w'; clear H.
      assert (U : l_onch (w_lk w0 l) = true /\ l_thr (w_lk w0 l) = l_thr (w_lk w l) /\ l_cv (w_lk w0 l) = l_cv (w_lk w l)).
      { assert (UR : unregister (setLkCnt w l 0) l = Some w0 -> l_onch (w_lk w0 l) = true /\ l_thr (w_lk w0 l) = l_thr (w_lk w l) /\ l_cv (w_lk w0 l) = l_cv (w_lk w l)).
        { intros X. unfold unregister in X. unfold setLkCnt in X. cbn [setLk w_lk] in X. rewrite !updf_same in X. cbn [l_reg l_ent l_st] in X. destruct (l_reg (w_lk w l)).
          - ob X. ob X. inversion X; subst; clear X. destruct (unregisterE_lk _ _ _ _ _ E1) as [L _]. cbn. rewrite updf_same. cbn. rewrite L. cbn. rewrite updf_same. cbn. auto.
          - inversion X; subst. cbn. rewrite updf_same. cbn. auto. }
        destruct (l_known (w_lk w l)); auto. inversion E; subst. cbn. rewrite updf_same. cbn. auto. }
      destruct U as (U1 & U2 & U3). rewrite U1 in *.
      set (w3 := if l_const _ then _ else _) in *.
      assert (T3 : l_thr (w_lk w3 l) = l_thr (w_lk w l) /\ l_cv (w_lk w3 l) = l_cv (w_lk w l)).
      { unfold w3. destruct (l_const (w_lk w0 l)); auto. cbn. rewrite updf_same. cbn. auto. }
      clearbody w3. destruct T3 as [T3 T4].
      assert (DT : l_thr (w_lk (dropThr (setLkTola w3 l false) l) l) = None /\ l_cv (w_lk (dropThr (setLkTola w3 l false) l) l) = None).
      { unfold dropThr. cbn [setLkTola setLk w_lk]. rewrite updf_same. cbn [l_thr]. rewrite T3. destruct (l_thr (w_lk w l)) eqn:TH.
        - cbn. rewrite updf_same. auto.
        - cbn. rewrite updf_same. cbn. rewrite T3, T4. split; auto. apply P_cv; auto. apply Gl. }
      destruct DT as [D1 D2]. apply GA_in; auto. unfold lkActive. now rewrite CW.
    + inversion H; subst w'; clear H. split.
      * apply GA_act. { unfold lkActive. cbn. rewrite updf_same. cbn. destruct n; [lia|reflexivity]. } assert (lkActive (w_lk w l) = true) as A1 by (unfold lkActive; rewrite C; reflexivity). rewrite A1 in Gl. apply (G_tf true l w); auto. cbn. rewrite updf_same. reflexivity.
      * intros _ _. exists []. rewrite app_nil_r. split; auto. intros _. left. unfold rdo, rd. cbn. rewrite updf_same. apply eqv_refl.
  - destruct (l_const (w_lk w m)) eqn:KC; [discriminate|].
    destruct (Nat.eq_dec m l) as [->|N].
    2:{ apply USE; [|rewrite (proj1 SS); cbn; now rewrite (proj2 (Nat.eqb_neq m l) N)]. eapply K_trans; [now apply (K_setLk true l m)|eapply K_handleChange; eauto]. }
    assert (X1 : w_lk (setLkEnv w l s) l = mkLk (l_onch (w_lk w l)) (l_const (w_lk w l)) (l_tolconst (w_lk w l)) (l_cnt (w_lk w l)) (l_st (w_lk w l)) (l_known (w_lk w l)) (l_ent (w_lk w l)) (l_reg (w_lk w l)) (l_thr (w_lk w l)) (l_cv (w_lk w l)) s (l_tol (w_lk w l)) (l_tola (w_lk w l))) by (cbn; apply updf_same).
    assert (G1 : G (lkActive (w_lk w l)) l (setLkEnv w l s)). { apply (G_tf _ l w); auto. rewrite X1. reflexivity. }
    assert (R1 : rdo (setLkEnv w l s) l = rdo w l). { unfold rdo, rd. rewrite X1. reflexivity. }
    destruct (lkActive (w_lk w l)) eqn:A.
    + assert (CP : (0 < l_cnt (w_lk w l))%nat) by now apply Nat.ltb_lt.
      assert (PR : pre (setLkEnv w l s) l) by (apply rest_pre; auto; congruence).
      destruct (hc_self l (setLkEnv w l s) ans w') as (G2 & d & D & Z); auto; try (rewrite X1; auto; fail). { apply G1. }
      split.
      * apply GA_act; auto. destruct SS as [SS _]. cbn in SS. rewrite Nat.eqb_refl in SS. inversion SS as [[S1 S2 S3 S4 S5 S6]]. unfold lkActive in *. rewrite S6. cbn [l_cnt]. congruence.
      * intros _ _. exists d. split; auto. intros PB. left. destruct (Z PB) as [Y|[Y1 Y2]]; [rewrite <- R1; auto|]. exfalso.
        destruct Gl as [[_ HP] [_ HG]]. rewrite X1 in Y1, Y2. cbn in Y1. destruct (l_thr (w_lk w l)) as [t|] eqn:TH; [|congruence].
        destruct HP as (c & e & ec & W1 & W2 & W3 & _). destruct (HG t c e ec eq_refl W1 W2 W3) as (W & _). unfold lkTol in *. cbn in Y2. congruence.
    + unfold handleChange in H. rewrite X1 in H. unfold lkActive in A, H. cbn [l_cnt] in H. rewrite A in H. inversion H; subst w'; clear H.
      split; [|apply Nat.ltb_ge in A; lia]. apply GA_in; rewrite X1; auto; [apply Gl|]. cbn. apply P_cv; auto; apply Gl.
  - destruct (l_tolconst (w_lk w m)) eqn:TCN; [discriminate|].
    destruct (Nat.eq_dec m l) as [->|N].
    2:{ apply USE; [|rewrite (proj1 SS); cbn; now rewrite (proj2 (Nat.eqb_neq m l) N)]. destruct (_ && _) in H.
        - eapply K_trans; [now apply (K_setLk true l m)|eapply K_handleChange; eauto].
        - inversion H. now apply K_setLk. }
    assert (X1 : w_lk (setLkTol w l v) l = mkLk (l_onch (w_lk w l)) (l_const (w_lk w l)) (l_tolconst (w_lk w l)) (l_cnt (w_lk w l)) (l_st (w_lk w l)) (l_known (w_lk w l)) (l_ent (w_lk w l)) (l_reg (w_lk w l)) (l_thr (w_lk w l)) (l_cv (w_lk w l)) (l_env (w_lk w l)) v (l_tola (w_lk w l))) by (cbn; apply updf_same).
    assert (R1 : rdo (setLkTol w l v) l = rdo w l). { unfold rdo, rd. rewrite X1. reflexivity. }
    rewrite O, andb_true_r in H. destruct (lkActive (w_lk w l)) eqn:A.
    + assert (CP : (0 < l_cnt (w_lk w l))%nat) by now apply Nat.ltb_lt.
      assert (PR : pre (setLkTol w l v) l).
      { destruct (rest_pre0 w l V CP) as (V1 & Y2 & Y3 & Y4 & Y5 & Y6 & Y7). unfold pre. rewrite X1. cbn -[okOpt].
        split; [apply inv_regs_setLk; auto|]. split. { intros k Nk. eapply upto_restL; eauto. apply upto_setLk. } auto 10. }
      assert (P1 : P l (setLkTol w l v)). { apply (P_tf l w); [rewrite X1; auto|rewrite X1; auto|auto|apply Gl]. }
      destruct (hc_self l (setLkTol w l v) [] w') as (G2 & d & D & Z); auto; try (rewrite X1; auto; fail).
      split.
      * apply GA_act; auto. destruct SS as [SS _]. cbn in SS. rewrite Nat.eqb_refl in SS. inversion SS as [[S1 S2 S3 S4 S5 S6]]. unfold lkActive in *. rewrite S6. cbn [l_cnt]. congruence.
      * intros _ _. exists d. split; auto. intros PB. destruct (Z PB) as [Y|[Y1 Y2]]; [left; rewrite <- R1; auto|].
        rewrite X1 in Y1, Y2. cbn in Y1. 
        destruct Gl as [[_ HP] [_ HG]]. destruct (l_thr (w_lk w l)) as [t|] eqn:TH; [|congruence].
        destruct HP as (c & e & ec & W1 & W2 & W3 & _). destruct (HG t c e ec eq_refl W1 W2 W3) as (W & _). unfold lkTol in *. cbn in Y2.
        destruct (l_tolconst (w_lk w l) || l_tola (w_lk w l)); [eauto|discriminate].
    + inversion H; subst w'; clear H. specialize (IN eq_refl). split; [|apply Nat.ltb_ge in A; lia].
      apply GA_in; rewrite X1; auto. cbn. apply P_cv; auto. apply Gl.
  - apply USE; [|apply SS]. eapply K_trans; [apply K_ensureE|]. eapply K_trans; [apply K_emit|eapply K_entUpdate; eauto].
  - apply USE; [|apply SS]. inversion H; subst. apply (K_same true l w _ [Cyc]); auto.
  - apply USE; [|apply SS]. destruct (findKey s (w_map w)); [|inversion H; apply K_refl]. destruct (e_lk _); inversion H; subst; [|apply K_refl].
    apply (K_same true l w _ [Del s]); auto.
Qed.

