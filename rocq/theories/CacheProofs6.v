(** Notifications: an active lookup's value does not change silently. *)
From Verif Require Import ValueModel RealModel RealProofs CacheModel CacheSpec OrderProps CacheProofs CacheProofs2 CacheProofs3 CacheProofs4 CacheProofs5.
Open Scope Z_scope.

Definition eqv (a b : val) : Prop := (vknown a = false /\ vknown b = false) \/ vsim a b.
Lemma eqv_refl a : eqv a a. Proof. right. now left. Qed.
Lemma eqv_trans a b c : eqv a b -> eqv b c -> eqv a c.
Proof.
  intros [[A B]|A] [[C D]|C].
  - left; auto.
  - left. split; auto. now rewrite <- (vsim_known _ _ C).
  - left. split; auto. now rewrite (vsim_known _ _ A).
  - right. eapply vsim_trans; eauto.
Qed.
Definition rd (w : world) (l : nat) : val :=
  match l_ent (w_lk w l) with Some e => entV (w_ent w e) | None => VUnk UNKNOWN_TYPE end.
(** A plain active lookup which is listed in the entry it points to. *)
Definition listed (l : nat) (w : world) : Prop :=
  l_onch (w_lk w l) = false /\ lkActive (w_lk w l) = true /\
  forall e, l_ent (w_lk w l) = Some e -> (e < w_next w)%nat /\ (1 <= occ (e_lk (w_ent w e)) l)%nat.
Definition notif (l m : nat) (w w' : world) : Prop :=
  exists d, w_tr w' = w_tr w ++ d /\ (m <> l -> listed l w -> listed l w' /\ (pubs l d = 0%nat -> eqv (rd w l) (rd w' l))).
Lemma notif_refl l m w : notif l m w w.
Proof. exists []. rewrite app_nil_r. split; auto. intros. split; auto. intros. apply eqv_refl. Qed.
Lemma notif_trans l m a b c : notif l m a b -> notif l m b c -> notif l m a c.
Proof.
  intros [d [A B]] [d' [C D]]. exists (d ++ d'). rewrite C, A, app_assoc. split; auto.
  intros N L. destruct (B N L) as [L1 E1]. destruct (D N L1) as [L2 E2]. split; auto.
  rewrite pubs_app. intros P. eapply eqv_trans; [apply E1|apply E2]; lia.
Qed.
(** Steps which keep l, its listing and the values. *)
Lemma notif_same l m w w' d : w_tr w' = w_tr w ++ d ->
  (m <> l -> core (w_lk w' l) = core (w_lk w l)) -> (w_next w <= w_next w')%nat ->
  (m <> l -> forall e, (e < w_next w)%nat -> e_val (w_ent w' e) = e_val (w_ent w e) /\ (occ (e_lk (w_ent w e)) l <= occ (e_lk (w_ent w' e)) l)%nat) ->
  notif l m w w'.
Proof.
  intros T C N V. exists d. split; auto. intros NE (L1 & L2 & L3). specialize (C NE). specialize (V NE). split.
  - split; [now rewrite (core_onch _ _ C)|]. split; [now rewrite (core_active _ _ C)|].
    intros e He. rewrite (core_ent _ _ C) in He. destruct (L3 e He). destruct (V e); auto. lia.
  - intros _. unfold rd. rewrite (core_ent _ _ C). destruct (l_ent (w_lk w l)) eqn:E; [|apply eqv_refl].
    destruct (L3 n eq_refl) as [L4 _]. unfold entV. destruct (V n L4) as [-> _]. apply eqv_refl.
Qed.
Lemma notif_quiet l m w w' : quiet w w' -> notif l m w w'.
Proof.
  intros [Q1 Q2 Q3 Q4 Q5 Q6 [d [Q7 Q8]]]. apply (notif_same l m w w' d); auto.
  - lia.
  - intros _ e _. rewrite Q4, Q5. auto.
Qed.
Lemma notif_setLk l m w y : notif l m w (setLk w m y).
Proof.
  apply (notif_same _ _ _ _ []); cbn; auto.
  - now rewrite app_nil_r.
  - intros N. rewrite updf_other; auto.
Qed.
Lemma notif_emit l m w v : notif l m w (emit w v).
Proof. apply (notif_same _ _ _ _ [v]); cbn; auto. Qed.

Lemma cvStore_eqv c ts v p : cvStore c ts v = p -> snd p = false -> fst p = c.
Proof. unfold cvStore. destruct (_ || _); intros <-; cbn; congruence. Qed.
Lemma cvSetUnknown_eqv c ts : snd (cvSetUnknown c ts) = false -> eqv (cv_v c) (cv_v (fst (cvSetUnknown c ts))).
Proof.
  unfold cvSetUnknown. destruct (cvType c =? UNKNOWN_TYPE); cbn. { intros. apply eqv_refl. } intros K. left. auto.
Qed.
Lemma cvUpdate_eqv c ts v p : cvUpdate c ts v = Some p -> snd p = false -> eqv (cv_v c) (cv_v (fst p)).
Proof.
  unfold cvUpdate. destruct (cvType c =? UNKNOWN_TYPE).
  - destruct (vknown v); [discriminate|]. intros H. inversion H; cbn. discriminate.
  - destruct v; intros H; repeat match type of H with (if ?b then _ else _) = _ => destruct b end; try discriminate;
      inversion H; intros K; subst; try (rewrite (cvStore_eqv c ts _ _ eq_refl K); apply eqv_refl).
    apply cvSetUnknown_eqv; auto.
Qed.
Lemma cvFactory_unk t c : cvFactory t = Some c -> vknown (cv_v c) = false.
Proof. unfold cvFactory. destruct (_ || _ || _); [|destruct (_ || _)]; intros H; inversion H; auto. Qed.
Lemma ensureCv_eqv cur t c : ensureCv cur t = Some (Some c) ->
  eqv (match cur with Some c0 => cv_v c0 | None => VUnk UNKNOWN_TYPE end) (cv_v c).
Proof.
  unfold ensureCv. destruct cur as [c0|].
  - destruct (_ || _). { intros H; inversion H; apply eqv_refl. }
    destruct (Z.eqb_spec (cvType c0) UNKNOWN_TYPE) as [E|].
    { destruct (cvFactory t) eqn:F; [|discriminate]. cbn. intros H; inversion H; subst. left. split; [|eapply cvFactory_unk; eauto].
      unfold cvType in E. destruct (cv_v c0); auto; discriminate. }
    destruct (_ && _). { intros H; inversion H; apply eqv_refl. }
    destruct (_ && _); [|discriminate]. intros H; inversion H; apply eqv_refl.
  - destruct (cvFactory t) eqn:F; [|discriminate]. cbn. intros H; inversion H; subst. left. split; auto. eapply cvFactory_unk; eauto.
Qed.
Lemma notif_setVal l m w e c (n : bool) w' :
  (n = false -> eqv (entV (w_ent w e)) (cv_v c)) ->
  (if n then notifyAll (e_lk (w_ent w e)) (setVal w e c) else Some (setVal w e c)) = Some w' -> notif l m w w'.
Proof.
  intros EQ H.
  assert (L1 : listed l w -> listed l (setVal w e c)).
  { intros (A & B & C). split; auto. split; auto. intros e' He. destruct (C e' He). split; auto.
    cbn. unfold updf. destruct (Nat.eqb_spec e' e) as [->|]; auto. }
  assert (RD : l_ent (w_lk w l) <> Some e -> rd (setVal w e c) l = rd w l).
  { intros N. unfold rd. cbn. destruct (l_ent (w_lk w l)) as [e'|]; auto. rewrite updf_other; auto. }
  assert (RE : l_ent (w_lk w l) = Some e -> rd (setVal w e c) l = cv_v c).
  { intros N. unfold rd. cbn. rewrite N, updf_same. reflexivity. }
  destruct n.
  - pose proof (quiet_notify _ _ _ H) as Q.
    destruct (notif_quiet l m _ _ Q) as [d [D1 D2]]. exists d. split; [exact D1|].
    intros N L. destruct (D2 N (L1 L)) as [D3 D4]. split; auto. intros P.
    eapply eqv_trans; [|apply D4; auto].
    destruct L as (A & B & C).
    destruct (l_ent (w_lk w l)) as [e'|] eqn:EN.
    + destruct (Nat.eq_dec e' e) as [->|NE]; [|rewrite RD by congruence; apply eqv_refl].
      exfalso. change (l_onch (w_lk (setVal w e c) l) = false) in A.
      destruct (notify_pubs l _ _ _ A H) as [d' [E1 [E2 E3]]].
      change (lkActive (w_lk (setVal w e c) l) = true) in B. rewrite B in E3.
      assert (d' = d). { rewrite D1 in E1. cbn in E1. apply app_inv_head in E1. auto. } subst d'.
      destruct (C e eq_refl). lia.
    + rewrite RD by congruence. apply eqv_refl.
  - inversion H; subst. exists []. rewrite app_nil_r. split; auto. intros _ L. split; auto. intros _.
    destruct (l_ent (w_lk w l)) as [e'|] eqn:EN; [|rewrite RD by congruence; apply eqv_refl].
    destruct (Nat.eq_dec e' e) as [->|NE]; [|rewrite RD by congruence; apply eqv_refl].
    rewrite RE by auto. unfold rd. rewrite EN. auto.
Qed.
Lemma notif_entUpdate l m w e u w' : entUpdate w e u = Some w' -> notif l m w w'.
Proof.
  intros H. unfold entUpdate, getE in H. destruct (live w e) eqn:LV; [|discriminate]. cbn [obind] in H.
  destruct u as [v|].
  - ob H. destruct o as [c|]; [|inversion H; apply notif_refl]. ob H. cbv zeta in H.
    eapply notif_setVal; [|exact H]. intros F. eapply eqv_trans; [apply (ensureCv_eqv _ _ _ E)|]. eapply cvUpdate_eqv; eauto.
  - destruct (e_val (w_ent w e)) eqn:EV; [|inversion H; apply notif_refl]. cbv zeta in H.
    eapply notif_setVal; [|exact H]. intros F. unfold entV. rewrite EV. now apply cvSetUnknown_eqv.
Qed.
Lemma notif_answers l m e s us : forall w w', answers w e s us = Some w' -> notif l m w w'.
Proof.
  induction us; cbn; intros w w' H. { inversion H; apply notif_refl. }
  ob H. eapply notif_trans; [apply notif_emit|]. eapply notif_trans; [eapply notif_entUpdate; eauto|auto].
Qed.
Lemma notif_registerE l m w e st ans w' : registerE w e st m ans = Some w' -> notif l m w w'.
Proof.
  intros H. unfold registerE, getE in H. destruct (live w e); [|discriminate]. cbn [obind] in H.
  set (w1 := setEnt w e _) in H.
  assert (N1 : notif l m w w1).
  { apply (notif_same _ _ _ _ []); cbn; auto. now rewrite app_nil_r. intros _ e' _. unfold updf. destruct (Nat.eqb_spec e' e) as [->|]; auto.
    cbn. rewrite occ_app. split; auto. lia. }
  destruct (match e_val (w_ent w e) with None => true | Some c => _ end).
  - eapply notif_trans; [exact N1|]. eapply notif_trans; [apply notif_emit|]. eapply notif_answers; eauto.
  - inversion H; subst; auto.
Qed.
Lemma notif_unregisterE l m w e st w' : unregisterE w e st m = Some w' -> notif l m w w'.
Proof.
  intros H. unfold unregisterE, getE in H. destruct (live w e); [|discriminate]. cbn [obind] in H.
  destruct (e_lk (w_ent w e)) as [|y r] eqn:EL; [inversion H; apply notif_refl|].
  destruct (negb _); [inversion H; apply notif_refl|]. rewrite <- EL in *.
  set (ls := if Nat.eqb (last (e_lk (w_ent w e)) m) m then _ else _) in H.
  assert (OL : m <> l -> occ ls l = occ (e_lk (w_ent w e)) l).
  { intros N. unfold ls. destruct (Nat.eqb_spec (last (e_lk (w_ent w e)) m) m).
    - rewrite (occ_removelast m); auto. rewrite (proj2 (Nat.eqb_neq l m)) by auto. lia. rewrite EL. discriminate.
    - rewrite occ_removeFirst. rewrite (proj2 (Nat.eqb_neq l m)) by auto. lia. }
  clearbody ls. cbv zeta in H.
  assert (N1 : forall t, notif l m w (setEnt w e (mkEnt (e_val (w_ent w e)) ls t))).
  { intros t. apply (notif_same _ _ _ _ []); cbn; auto. now rewrite app_nil_r. intros N e' _. unfold updf. destruct (Nat.eqb_spec e' e) as [->|]; auto.
    cbn [e_val e_lk]. rewrite (OL N). auto. }
  destruct ls as [|x ls].
  - inversion H; subst. apply (N1 false).
  - destruct (e_thr (w_ent w e)); [|inversion H; subst; apply N1].
    eapply notif_trans; [apply N1|]. apply notif_quiet, quietT_quiet. eapply quiet_updT; eauto.
Qed.
Lemma notif_ensureE l m w s : notif l m w (fst (ensureE w s)).
Proof.
  unfold ensureE. destruct (findKey s (w_map w)); cbn [fst]; [apply notif_refl|].
  apply (notif_same _ _ _ _ []); cbn; auto. now rewrite app_nil_r. intros _ e L. rewrite updf_other by lia. auto.
Qed.
Lemma notif_ensureRegistered l m w ans w' : ensureRegistered w m ans = Some w' -> notif l m w w'.
Proof.
  unfold ensureRegistered. destruct (l_reg _). { intros H; inversion H; apply notif_refl. }
  intros H. ob H. ob H. inversion H; subst. eapply notif_trans; [eapply notif_registerE; eauto|apply notif_setLk].
Qed.
Lemma notif_unregister l m w w' : unregister w m = Some w' -> notif l m w w'.
Proof.
  unfold unregister. destruct (l_reg _). 2:{ intros H; inversion H; apply notif_refl. }
  intros H. ob H. ob H. inversion H; subst. eapply notif_trans; [eapply notif_unregisterE; eauto|apply notif_setLk].
Qed.
Lemma notif_invalidateOld l m w w' : invalidateOld w m = Some w' -> notif l m w w'.
Proof.
  unfold invalidateOld. intros H. ob H. inversion H; subst. eapply notif_trans; [eapply notif_unregister; eauto|].
  eapply notif_trans; [apply notif_setLk|]. destruct (l_onch _); [apply notif_quiet, quiet_dropThr|apply notif_refl].
Qed.
Lemma notif_handleActivate l m w ans w' : handleActivate w m ans = Some w' -> notif l m w w'.
Proof.
  unfold handleActivate. set (w1 := if l_const (w_lk w m) then w else _).
  assert (S1 : notif l m w w1).
  { unfold w1. destruct (l_const _); [apply notif_refl|]. destruct (l_env _); apply notif_setLk. }
  clearbody w1. cbv zeta. set (w2 := match l_ent (w_lk w1 m) with Some _ => w1 | None => _ end).
  assert (S2 : notif l m w w2).
  { eapply notif_trans; [exact S1|]. unfold w2. destruct (l_ent _); [apply notif_refl|]. destruct (l_known _); [|apply notif_refl].
    eapply notif_trans; [apply notif_ensureE|apply notif_setLk]. }
  clearbody w2. destruct (l_ent (w_lk w2 m)); intros H; [|inversion H; subst; auto].
  eapply notif_trans; [exact S2|]. eapply notif_ensureRegistered; eauto.
Qed.
Lemma notif_updI l m w k vc p : updateInternal w k vc = Some p -> notif l m w (fst p).
Proof. intros H. apply notif_quiet. eapply quietT_updI'; eauto. Qed.
Lemma notif_publish l m w k : notif l m w (publish w k).
Proof. apply notif_quiet, quiet_publish. Qed.
Lemma notif_opActivate l m w ans w' : opActivate w m ans = Some w' -> notif l m w w'.
Proof.
  intros H. unfold opActivate in H. eapply notif_trans; [apply (notif_setLk l m w)|].
  destruct (Nat.eqb _ 0). 2:{ inversion H. apply notif_refl. }
  ob H. eapply notif_trans; [eapply notif_handleActivate; eauto|]. destruct (l_onch _); [|inversion H; subst; apply notif_refl].
  ob H. ob H. inversion H; subst. eapply notif_trans; [apply notif_setLk|].
  eapply notif_trans; [eapply notif_updI; eauto|]. destruct b; [apply notif_publish|apply notif_refl].
Qed.
Lemma notif_opDeactivate l m w w' : opDeactivate w m = Some w' -> notif l m w w'.
Proof.
  intros H. unfold opDeactivate in H. destruct (l_cnt (w_lk w m)) as [|n]; [discriminate|].
  eapply notif_trans; [apply (notif_setLk l m w)|]. cbv zeta in H.
  destruct (Nat.eqb n 0). 2:{ inversion H. apply notif_refl. }
  ob H. inversion H; subst; clear H.
  assert (S1 : notif l m (setLkCnt w m n) w0).
  { destruct (l_known (w_lk w m)); [eapply notif_unregister; eauto|]. inversion E. apply notif_refl. }
  eapply notif_trans; [exact S1|].
  set (w3 := if l_const _ then _ else _).
  assert (S3 : notif l m w0 w3). { unfold w3. destruct (l_const _); [apply notif_refl|apply notif_setLk]. }
  clearbody w3. eapply notif_trans; [exact S3|]. destruct (l_onch (w_lk w0 m)); [|apply notif_refl].
  eapply notif_trans; [apply notif_setLk|apply notif_quiet, quiet_dropThr].
Qed.
Lemma notif_hci l m w ans p : handleChangeInternal w m ans = Some p -> notif l m w (fst p).
Proof.
  unfold handleChangeInternal. destruct (l_env (w_lk w m)) as [s|].
  - intros H. ob H. cbv zeta in H. ob H. inversion H; subst; cbn [fst].
    eapply notif_trans; [apply notif_setLk|].
    eapply notif_trans with (b := w0). { destruct (_ && _) in E; [eapply notif_invalidateOld; eauto|inversion E; apply notif_refl]. }
    eapply notif_trans; [apply notif_ensureE|]. eapply notif_trans; [apply notif_setLk|]. eapply notif_ensureRegistered; eauto.
  - intros H. ob H. inversion H; subst; cbn [fst]. eapply notif_trans; [apply notif_setLk|].
    destruct (l_known _) in E; [eapply notif_invalidateOld; eauto|inversion E; apply notif_refl].
Qed.
Lemma notif_handleChange l m w ans w' : handleChange w m ans = Some w' -> notif l m w w'.
Proof.
  intros H. unfold handleChange in H. destruct (lkActive _); [|inversion H; apply notif_refl].
  ob H. eapply notif_trans; [eapply notif_hci; eauto|]. destruct (l_onch (w_lk w m)).
  - ob H. inversion H; subst. eapply notif_trans; [eapply notif_updI; eauto|]. destruct (snd p0); [apply notif_publish|apply notif_refl].
  - inversion H; subst. destruct (snd p); [apply notif_publish|apply notif_refl].
Qed.

Lemma INV_listed w l : INV w -> l_onch (w_lk w l) = false -> (0 < l_cnt (w_lk w l))%nat -> listed l w.
Proof.
  intros [V R] P A. split; auto. split. { apply Nat.ltb_lt; auto. } intros e He.
  destruct (R l) as (_ & _ & D & E & _ & G). destruct (G e He) as [G1 _]. split; auto.
  specialize (E A). destruct (l_env (w_lk w l)) as [s|] eqn:EV; [|destruct E; congruence].
  destruct E as [_ [_ [e' [E1 E2]]]]. assert (e' = e) by congruence. subst.
  rewrite (i_occ _ _ V). 2:{ eapply findKey_live; eauto. }
  unfold regs. rewrite (proj2 D) by (split; auto; discriminate). rewrite (proj2 (at_ent_spec _ _) He). auto.
Qed.
Lemma pub_active w l : lkActive (w_lk w l) = true -> w_tr (publish w l) = w_tr w ++ [Pub l].
Proof. intros A. unfold publish. rewrite A. reflexivity. Qed.
Lemma pubs_pub l : pubs l [Pub l] = 1%nat.
Proof. unfold pubs. cbn. destruct (Nat.eq_dec l l); congruence. Qed.

(** Every operation: a plain lookup which is active before and after does not change its
    value without notifying. *)
Theorem step_notif o w w' l : INV w -> okOp o -> step o w = Some w' ->
  l_onch (w_lk w l) = false -> (0 < l_cnt (w_lk w l))%nat -> (0 < l_cnt (w_lk w' l))%nat ->
  exists d, w_tr w' = w_tr w ++ d /\ (pubs l d = 0%nat -> eqv (rd w l) (rd w' l)).
Proof.
  intros V OK H P A A'. pose proof (INV_listed w l V P A) as L.
  assert (USE : forall m, m <> l -> notif l m w w' -> exists d, w_tr w' = w_tr w ++ d /\ (pubs l d = 0%nat -> eqv (rd w l) (rd w' l))).
  { intros m N [d [D1 D2]]. exists d. split; auto. apply D2; auto. }
  destruct o as [m ans|m|m s ans|m v|s u| |s]; cbn [step] in H.
  - destruct (Nat.eq_dec m l) as [->|N]; [|eapply USE; eauto; eapply notif_opActivate; eauto].
    unfold opActivate in H. destruct (Nat.eqb_spec (l_cnt (w_lk w l)) 0); [lia|]. inversion H; subst.
    exists []. rewrite app_nil_r. split; auto. intros _. unfold rd. cbn. rewrite updf_same. apply eqv_refl.
  - destruct (Nat.eq_dec m l) as [->|N]; [|eapply USE; eauto; eapply notif_opDeactivate; eauto].
    pose proof (opDeactivate_stat _ _ _ l H) as [S _]. rewrite Nat.eqb_refl in S. inversion S as [[S1 S2 S3 S4 S5 S6]]. cbn in S6.
    unfold opDeactivate in H. destruct (l_cnt (w_lk w l)) as [|n] eqn:C; [discriminate|]. cbn in S6.
    destruct (Nat.eqb_spec n 0); [lia|]. inversion H; subst.
    exists []. rewrite app_nil_r. split; auto. intros _. unfold rd. cbn. rewrite updf_same. apply eqv_refl.
  - destruct (l_const (w_lk w m)) eqn:K; [discriminate|].
    destruct (Nat.eq_dec m l) as [->|N].
    2:{ eapply USE; eauto. eapply notif_trans; [apply notif_setLk|eapply notif_handleChange; eauto]. }
    set (w1 := setLkEnv w l s) in *. unfold handleChange in H.
    assert (X1 : w_lk w1 l = mkLk (l_onch (w_lk w l)) (l_const (w_lk w l)) (l_tolconst (w_lk w l)) (l_cnt (w_lk w l)) (l_st (w_lk w l)) (l_known (w_lk w l)) (l_ent (w_lk w l)) (l_reg (w_lk w l)) (l_thr (w_lk w l)) (l_cv (w_lk w l)) s (l_tol (w_lk w l)) (l_tola (w_lk w l))) by (cbn; apply updf_same).
    assert (AC : lkActive (w_lk w1 l) = true). { rewrite X1. unfold lkActive. cbn [l_cnt]. now apply Nat.ltb_lt. }
    rewrite AC in H. ob H. rewrite X1 in H at 1. cbn [l_onch] in H. rewrite P in H. inversion H; subst w'; clear H.
    destruct (notif_hci l l _ _ _ E) as [d [D1 _]]. cbn [w1 setLkEnv setLk w_tr] in D1.
    destruct (snd p) eqn:SP.
    + exists (d ++ [Pub l]). rewrite pub_active, D1, app_assoc. split; auto. rewrite pubs_app, pubs_pub. lia.
      pose proof (handleChangeInternal_stat _ _ _ _ l E) as S. inversion S. unfold lkActive. rewrite H5. exact AC.
    + exists d. split; auto. intros _. destruct p as [w2 b]. cbn [fst snd] in *. subst b.
      destruct (rest_pre w l s V A) as (V1 & R1 & OK1 & _ & P1 & RG1 & E1); auto. { congruence. } fold w1 in V1, R1, OK1, P1, RG1, E1.
      unfold handleChangeInternal in E. rewrite X1 in E. cbn [l_env l_known l_st l_ent] in E.
      destruct s as [s|].
      * ob E. cbv zeta in E. ob E. inversion E as [[Q1 Q2]]. subst w2. clear E.
        destruct (l_known (w_lk w l)) eqn:KN; [|discriminate]. cbn [negb orb andb] in *. destruct (negb (state_eq s (l_st (w_lk w l)))) eqn:SE; [discriminate|].
        apply negb_false_iff in SE. inversion E0; subst w0; clear E0. rewrite X1 in E1. cbn [l_known l_st l_ent] in E1. rewrite ?KN in E1. destruct E1 as [Z1 [e [Z2 Z3]]].
        change (w_map w1) with (w_map w) in Z3.
        assert (F : findKey s (w_map w) = Some e).
        { rewrite <- Z3. cbn in OK. destruct OK as [OKa OKb]. apply (inv_find_cong (regs w) w); [apply V|exact OKa|apply Z1|apply state_eq_key; [split| |]; auto]. }
        unfold ensureE in E2. change (w_map (setLkEnt w1 l (l_st (w_lk w l)) true (l_ent (w_lk w l)))) with (w_map w) in E2.
        rewrite F in E2. cbn [fst snd] in E2. rewrite X1 in RG1. cbn [l_reg l_known] in RG1.
        unfold ensureRegistered in E2. cbn [setLkEnt setLk w_lk] in E2. rewrite !updf_same in E2. cbn [l_reg] in E2.
        rewrite ?KN in RG1. rewrite X1 in E2. cbn [l_reg] in E2. rewrite RG1 in E2.
        inversion E2; subst. unfold rd. cbn. rewrite !updf_same. cbn. rewrite Z2. apply eqv_refl.
      * rewrite X1 in E1. cbn [l_known l_st l_ent] in E1.
        destruct (l_known (w_lk w l)) eqn:KN; ob E; inversion E; subst. inversion E0; subst. unfold rd. cbn. rewrite !updf_same. cbn. rewrite E1. apply eqv_refl.
  - destruct (l_tolconst (w_lk w m)); [discriminate|].
    destruct (Nat.eq_dec m l) as [->|N].
    + rewrite P, andb_false_r in H. inversion H; subst. exists []. rewrite app_nil_r. split; auto. intros _. unfold rd. cbn. rewrite updf_same. apply eqv_refl.
    + eapply USE; eauto. destruct (_ && _).
      * eapply notif_trans; [apply notif_setLk|eapply notif_handleChange; eauto].
      * inversion H; subst. apply notif_setLk.
  - apply (USE (S l)); auto. eapply notif_trans; [apply notif_ensureE|]. eapply notif_trans; [apply notif_emit|eapply notif_entUpdate; eauto].
  - inversion H; subst. exists [Cyc]. split; auto. intros _. apply eqv_refl.
  - destruct (findKey s (w_map w)); [destruct (e_lk _)|]; inversion H; subst; (exists [Del s] + exists []); (split; [reflexivity || now rewrite app_nil_r|]; intros; apply eqv_refl).
Qed.
