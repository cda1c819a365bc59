(** Change lookups: the tolerance is read while active; one update notifies at most once. *)
From Verif Require Import ValueModel RealModel RealProofs CacheModel CacheSpec OrderProps CacheProofs CacheProofs2 CacheFresh CacheProofs3 CacheProofs4 CacheProofs5 CacheProofs6 CacheTol CacheTol2 CacheTol3.
Open Scope Z_scope.
Lemma core_tola x y : core x = core y -> l_tola x = l_tola y. Proof. intros H; now inversion H. Qed.
Lemma ensureRegistered_tola w m ans w' l : ensureRegistered w m ans = Some w' -> l_tola (w_lk w' l) = l_tola (w_lk w l).
Proof.
  unfold ensureRegistered. destruct (l_reg _). { intros H; inversion H; auto. }
  intros H. ob H. ob H. inversion H; subst. cbn. unfold updf. destruct (Nat.eqb_spec l m) as [->|].
  - cbn. apply (registerE_core _ _ _ _ _ _ m) in E0. apply core_tola in E0. exact E0.
  - apply core_tola. eapply registerE_core; eauto.
Qed.
Lemma handleActivate_tola w m ans w' l : handleActivate w m ans = Some w' -> l_tola (w_lk w' l) = l_tola (w_lk w l).
Proof.
  unfold handleActivate. set (w1 := if l_const (w_lk w m) then w else _).
  assert (S1 : l_tola (w_lk w1 l) = l_tola (w_lk w l)).
  { unfold w1. destruct (l_const _); auto. destruct (l_env (w_lk w m)); cbn; unfold updf; destruct (Nat.eqb_spec l m) as [->|]; auto. }
  clearbody w1. cbv zeta. set (w2 := match l_ent (w_lk w1 m) with Some _ => w1 | None => _ end).
  assert (S2 : l_tola (w_lk w2 l) = l_tola (w_lk w l)).
  { rewrite <- S1. unfold w2. destruct (l_ent _); auto. destruct (l_known _); auto. cbn. unfold updf.
    rewrite ensureE_lk. destruct (Nat.eqb_spec l m) as [->|]; auto. }
  clearbody w2. destruct (l_ent (w_lk w2 m)); intros H; [|inversion H; subst; auto].
  rewrite (ensureRegistered_tola _ _ _ _ l H). auto.
Qed.
Lemma unregister_tola w m w' l : unregister w m = Some w' -> l_tola (w_lk w' l) = l_tola (w_lk w l).
Proof.
  unfold unregister. destruct (l_reg _). 2:{ intros H; inversion H; auto. }
  intros H. ob H. ob H. inversion H; subst.
  assert (C : forall k, core (w_lk w0 k) = core (w_lk w k)).
  { intros k. unfold unregisterE in E0. ob E0. destruct (e_lk e) as [|y r]; [inversion E0; auto|].
    destruct (negb _); [inversion E0; auto|].
    cbv zeta in E0. set (ls := if Nat.eqb (last (y :: r) m) m then _ else _) in E0. clearbody ls. destruct ls; [inversion E0; auto|].
    destruct (e_thr e); [|inversion E0; auto]. apply quiet_updT in E0. rewrite (q_core _ _ _ E0 k). reflexivity. }
  cbn. unfold updf. destruct (Nat.eqb_spec l m) as [->|].
  - specialize (C m). apply core_tola in C. exact C.
  - apply core_tola, C.
Qed.
Lemma invalidateOld_tola w m w' l : invalidateOld w m = Some w' -> l_tola (w_lk w' l) = l_tola (w_lk w l).
Proof.
  unfold invalidateOld. intros H. ob H. inversion H; subst. rewrite <- (unregister_tola _ _ _ l E).
  destruct (l_onch _); [rewrite (core_tola _ _ (dropThr_core _ m l))|]; cbn; unfold updf; destruct (Nat.eqb_spec l m) as [->|]; auto.
Qed.
Lemma handleChangeInternal_tola w m ans p l : handleChangeInternal w m ans = Some p -> l_tola (w_lk (fst p) l) = l_tola (w_lk w l).
Proof.
  unfold handleChangeInternal. destruct (l_env (w_lk w m)) as [s|].
  - intros H. ob H. cbv zeta in H. ob H. inversion H; subst; cbn [fst].
    rewrite (ensureRegistered_tola _ _ _ _ l E0).
    assert (S0 : l_tola (w_lk w0 l) = l_tola (w_lk w l)).
    { destruct (_ && _) in E; [rewrite (invalidateOld_tola _ _ _ l E)|inversion E; subst];
        cbn; unfold updf; destruct (Nat.eqb_spec l m) as [->|]; auto. }
    rewrite <- S0. cbn. unfold updf. rewrite ensureE_lk. destruct (Nat.eqb_spec l m) as [->|]; auto.
  - intros H. ob H. inversion H; subst; cbn [fst].
    destruct (l_known _) in E; [rewrite (invalidateOld_tola _ _ _ l E)|inversion E; subst];
        cbn; unfold updf; destruct (Nat.eqb_spec l m) as [->|]; auto.
Qed.
Lemma handleChange_tola w m ans w' l : handleChange w m ans = Some w' -> l_tola (w_lk w' l) = l_tola (w_lk w l).
Proof.
  intros H. unfold handleChange in H. destruct (lkActive _); [|inversion H; auto].
  ob H. rewrite <- (handleChangeInternal_tola _ _ _ _ l E). destruct (l_onch (w_lk w m)).
  - ob H. inversion H; subst. apply quietT_updI' in E0. rewrite <- (core_tola _ _ (q_core _ _ _ E0 l)).
    destruct (snd p0); auto. now rewrite lk_publish.
  - inversion H; subst. destruct (snd p); auto. now rewrite lk_publish.
Qed.
Lemma setLk_tola w m y l : l_tola y = l_tola (w_lk w m) -> l_tola (w_lk (setLk w m y) l) = l_tola (w_lk w l).
Proof. intros E. cbn. unfold updf. destruct (Nat.eqb_spec l m) as [->|]; auto. Qed.
(** The tolerance expression of a change lookup is active while the lookup is. *)
Definition TA (l : nat) (w : world) : Prop := l_onch (w_lk w l) = true -> lkActive (w_lk w l) = true -> l_tola (w_lk w l) = true.
Theorem step_TA o w w' l : step o w = Some w' -> TA l w -> TA l w'.
Proof.
  intros H T O' A'. pose proof (proj1 (step_stat o w w' l H)) as SS.
  assert (SC : l_onch (w_lk w l) = true /\ l_cnt (w_lk w' l) = l_cnt (statAfter o l (w_lk w l))).
  { inversion SS as [[S1 S2 S3 S4 S5 S6]]. rewrite S6. split; auto. rewrite O' in S1. rewrite S1.
    destruct o; cbn; try destruct (Nat.eqb _ _); auto. }
  destruct SC as [O SC].
  assert (SAME : l_tola (w_lk w' l) = l_tola (w_lk w l) -> l_cnt (w_lk w' l) = l_cnt (w_lk w l) -> l_tola (w_lk w' l) = true).
  { intros -> C. apply T; auto. unfold lkActive in *. now rewrite <- C. }
  destruct o as [m ans|m|m s ans|m v|s u| |s]; cbn [step statAfter] in *.
  - unfold opActivate in H. set (w1 := setLkCnt w m (S (l_cnt (w_lk w m)))) in *.
    assert (T1 : l_tola (w_lk w1 l) = l_tola (w_lk w l)) by (apply setLk_tola; auto).
    destruct (Nat.eqb_spec (l_cnt (w_lk w m)) 0) as [Z|Z].
    + ob H. pose proof (handleActivate_tola _ _ _ _ l E) as T2.
      destruct (Nat.eqb_spec m l) as [->|N].
      * rewrite O in H. ob H. ob H. inversion H; subst. apply quietT_updI' in E0. pose proof (core_tola _ _ (q_core _ _ _ E0 l)) as T3.
        destruct b; rewrite ?lk_publish, T3; cbn; now rewrite updf_same.
      * apply SAME; auto. rewrite <- T1, <- T2. destruct (l_onch (w_lk w m)); [|inversion H; auto]. ob H. ob H. inversion H; subst.
        apply quietT_updI' in E0. pose proof (core_tola _ _ (q_core _ _ _ E0 l)) as T3.
        destruct b; rewrite ?lk_publish, T3; cbn; now rewrite updf_other by auto.
    + inversion H; subst. rewrite T1. apply T; auto. unfold lkActive in *. destruct (Nat.eqb_spec m l) as [->|N]; [apply Nat.ltb_lt; lia|]. now rewrite <- SC.
  - unfold opDeactivate in H. destruct (l_cnt (w_lk w m)) as [|n] eqn:C; [discriminate|]. cbv zeta in H.
    assert (T1 : l_tola (w_lk (setLkCnt w m n) l) = l_tola (w_lk w l)) by (apply setLk_tola; auto).
    destruct (Nat.eqb_spec n 0) as [->|NZ].
    + destruct (Nat.eqb_spec m l) as [->|N]. { exfalso. cbn in SC. rewrite C in SC. unfold lkActive in A'. rewrite SC in A'. discriminate. }
      apply SAME; auto. rewrite <- T1. ob H. inversion H; subst; clear H.
      assert (S2 : l_tola (w_lk w0 l) = l_tola (w_lk (setLkCnt w m 0) l)).
      { destruct (l_known (w_lk w m)); [eapply unregister_tola; eauto|inversion E; auto]. }
      rewrite <- S2. set (w3 := if l_const _ then _ else _).
      assert (S3 : l_tola (w_lk w3 l) = l_tola (w_lk w0 l)). { unfold w3. destruct (l_const _); auto. apply setLk_tola; auto. }
      clearbody w3. rewrite <- S3. destruct (l_onch _); auto. rewrite (core_tola _ _ (dropThr_core _ m l)). cbn. now rewrite updf_other by auto.
    + inversion H; subst. rewrite T1. apply T; auto. unfold lkActive in *. destruct (Nat.eqb_spec m l) as [->|N]; [apply Nat.ltb_lt; lia|]. now rewrite <- SC.
  - destruct (l_const (w_lk w m)); [discriminate|]. apply SAME.
    + rewrite (handleChange_tola _ _ _ _ l H). apply setLk_tola; auto.
    + rewrite SC. destruct (Nat.eqb m l); auto.
  - destruct (l_tolconst (w_lk w m)); [discriminate|]. apply SAME.
    + destruct (_ && _) in H; [rewrite (handleChange_tola _ _ _ _ l H)|inversion H]; apply setLk_tola; auto.
    + rewrite SC. destruct (Nat.eqb m l); auto.
  - apply SAME; auto. rewrite (core_tola _ _ (entUpdate_core _ _ _ _ l H)). cbn. now rewrite ensureE_lk.
  - inversion H; subst. apply SAME; auto.
  - apply SAME; auto. destruct (findKey s (w_map w)); [|inversion H; auto]. destruct (e_lk _); inversion H; auto.
Qed.

(** ** Delivery to l: exactly one call of updateInternal. *)
Lemma vc_pubs0 m w w' l : valueChanged m w = Some w' -> m <> l -> exists d, w_tr w' = w_tr w ++ d /\ pubs l d = 0%nat.
Proof.
  intros H N. assert (PM : pubs l [Pub m] = 0%nat). { unfold pubs. cbn. destruct (Nat.eq_dec m l); congruence. }
  assert (PUB : forall v, exists d, w_tr (publish v m) = w_tr v ++ d /\ pubs l d = 0%nat).
  { intros v. unfold publish. destruct lkActive; [exists [Pub m]; auto|exists []; rewrite app_nil_r; auto]. }
  unfold valueChanged in H. destruct (l_onch (w_lk w m)).
  - destruct (lkActive (w_lk w m)). 2:{ inversion H; subst. exists []. rewrite app_nil_r; auto. }
    ob H. inversion H; subst; clear H. destruct (q_tr _ _ _ (quiet_updI _ _ _ _ E)) as [d [D Z]]. apply (pubs_T l) in Z.
    destruct (snd p); [|eauto]. destruct (PUB (fst p)) as [d' [D' Z']]. exists (d ++ d'). rewrite D', D, app_assoc, pubs_app. split; auto. lia.
  - inversion H; subst. apply PUB.
Qed.
Lemma notify_none l ls : forall w w', notifyAll ls w = Some w' -> occ ls l = 0%nat ->
  w_lk w' l = w_lk w l /\ exists d, w_tr w' = w_tr w ++ d /\ pubs l d = 0%nat.
Proof.
  induction ls as [|m ls IH]; cbn [notifyAll]; intros w w' H OC.
  - inversion H; subst. split; auto. exists []. rewrite app_nil_r. auto.
  - unfold occ in OC. cbn in OC. destruct (Nat.eq_dec m l) as [|N]; [discriminate|]. ob H. destruct (IH _ _ H OC) as [L [d [D Z]]].
    destruct (vc_pubs0 _ _ _ l E N) as [d0 [D0 Z0]]. rewrite L, (vc_other _ _ _ l E) by auto. split; auto.
    exists (d0 ++ d). rewrite D, D0, app_assoc, pubs_app. split; auto. lia.
Qed.
Lemma notify_one l ls : forall w w', l_onch (w_lk w l) = true -> lkActive (w_lk w l) = true -> notifyAll ls w = Some w' -> occ ls l = 1%nat ->
  exists wa p, w_lk wa l = w_lk w l /\ (forall e, e_val (w_ent wa e) = e_val (w_ent w e)) /\ updateInternal wa l true = Some p /\
    w_lk w' l = w_lk (fst p) l /\ exists d, w_tr w' = w_tr w ++ d /\ pubs l d = (if snd p then 1 else 0)%nat.
Proof.
  induction ls as [|m ls IH]; cbn [notifyAll]; intros w w' O A H OC; [discriminate|].
  unfold occ in OC. cbn in OC. ob H. pose proof (quiet_vc _ _ _ E) as Q. destruct (Nat.eq_dec m l) as [->|N].
  - injection OC as OC. destruct (notify_none l ls _ _ H OC) as [L [d [D Z]]]. unfold valueChanged in E. rewrite O, A in E. ob E. inversion E; subst; clear E.
    exists w, p. split; auto. split; auto. split; auto. rewrite L.
    destruct (q_tr _ _ _ (quiet_updI _ _ _ _ E0)) as [d1 [D1 Z1]]. apply (pubs_T l) in Z1.
    assert (AP : lkActive (w_lk (fst p) l) = true). { rewrite (core_active _ _ (q_core _ _ _ (quietT_updI' _ _ _ _ E0) l)). auto. }
    destruct (snd p).
    + split; [now rewrite lk_publish|]. rewrite pub_active in D by auto. exists (d1 ++ [Pub l] ++ d). rewrite D, D1, !app_assoc. split; auto.
      rewrite !pubs_app, pubs_pub. lia.
    + split; auto. exists (d1 ++ d). rewrite D, D1, app_assoc, pubs_app. split; auto. lia.
  - assert (L : w_lk w0 l = w_lk w l) by (eapply vc_other; eauto).
    destruct (IH w0 w') as (wa & p & X1 & X2 & X3 & X4 & d & D & Z); auto; try (rewrite L; auto).
    destruct (vc_pubs0 _ _ _ l E N) as [d0 [D0 Z0]]. exists wa, p. split; [congruence|]. split. { intros e. rewrite X2. apply Q. }
    split; auto. split; auto. exists (d0 ++ d). rewrite D, D0, app_assoc, pubs_app. split; auto. lia.
Qed.
