(** Change lookups: every operation keeps the invariant and no value changes silently. *)
From Verif Require Import ValueModel RealModel RealProofs CacheModel CacheSpec OrderProps CacheProofs CacheProofs2 CacheFresh CacheProofs3 CacheProofs4 CacheProofs5 CacheProofs6 CacheTol.
Open Scope Z_scope.

Lemma eqv_known a b : eqv a b -> vknown a = vknown b.
Proof.
  intros [[-> ->]|[->|[_ E]]]; auto. destruct (vknown a) eqn:A, (vknown b) eqn:B; auto.
  - destruct b; try discriminate. rewrite C19_symmetric in E. apply C19_unknown in E as [u [-> _]]. discriminate.
  - destruct a; try discriminate. apply C19_unknown in E as [u [-> _]]. discriminate.
Qed.
Definition listedO (l : nat) (w : world) : Prop :=
  l_onch (w_lk w l) = true /\ lkActive (w_lk w l) = true /\
  forall e, l_ent (w_lk w l) = Some e -> (e < w_next w)%nat /\ (1 <= occ (e_lk (w_ent w e)) l)%nat.
(** Steps taken on behalf of others, or deliveries. *)
Definition K (q : bool) (l : nat) (w w' : world) : Prop :=
  exists d, w_tr w' = w_tr w ++ d /\
    (l_onch (w_lk w l) = true -> lkActive (w_lk w l) = false -> w_lk w' l = w_lk w l) /\
    (listedO l w -> G q l w -> listedO l w' /\ G q l w' /\
       (pubs l d = 0%nat -> eqv (rdo w l) (rdo w' l) /\ (l_thr (w_lk w l) = None -> l_thr (w_lk w' l) = None))).
Lemma K_refl q l w : K q l w w.
Proof. exists []. rewrite app_nil_r. split; auto. split; auto. intros A B. split; auto. split; auto. intros _. split; auto. apply eqv_refl. Qed.
Lemma K_trans q l a b c : K q l a b -> K q l b c -> K q l a c.
Proof.
  intros [d [A [B C]]] [d' [A' [B' C']]]. exists (d ++ d'). rewrite A', A, app_assoc. split; auto. split.
  - intros O I. rewrite B'; rewrite B; auto.
  - intros L Gl. destruct (C L Gl) as (L1 & G1 & E1). destruct (C' L1 G1) as (L2 & G2 & E2). split; auto. split; auto.
    rewrite pubs_app. intros Z. destruct E1 as [E1 N1]; [lia|]. destruct E2 as [E2 N2]; [lia|]. split; auto. eapply eqv_trans; eauto.
Qed.
Lemma K_same q l w w' d : w_tr w' = w_tr w ++ d -> w_lk w' l = w_lk w l -> (w_next w <= w_next w')%nat ->
  (forall e, (e < w_next w)%nat -> e_val (w_ent w' e) = e_val (w_ent w e) /\ (occ (e_lk (w_ent w e)) l <= occ (e_lk (w_ent w' e)) l)%nat) -> K q l w w'.
Proof.
  intros T L N E. exists d. split; auto. split; auto. intros (A & B & C) Gl.
  assert (EV : forall e, l_ent (w_lk w l) = Some e -> e_val (w_ent w' e) = e_val (w_ent w e)).
  { intros e He. apply E. apply C, He. }
  split.
  - split; [now rewrite L|]. split; [now rewrite L|]. rewrite L. intros e He. destruct (C e He). destruct (E e); auto. lia.
  - split; [eapply G_ext; eauto|]. intros _. rewrite L. split; auto. rewrite (rdo_ext l w w'); auto. apply eqv_refl.
Qed.
Lemma K_setLk q l m w y : m <> l -> K q l w (setLk w m y).
Proof. intros N. apply (K_same q l w _ []); [cbn; now rewrite app_nil_r|cbn; now rewrite updf_other by auto|cbn; lia|auto]. Qed.
Lemma K_emit q l w v : K q l w (emit w v).
Proof. apply (K_same q l w _ [v]); auto. Qed.
Lemma K_publish q l m w : K q l w (publish w m).
Proof. unfold publish. destruct lkActive; [apply K_emit|apply K_refl]. Qed.
Lemma K_quietlk q l w w' : quiet w w' -> w_lk w' l = w_lk w l -> K q l w w'.
Proof.
  intros [Q1 Q2 Q3 Q4 Q5 Q6 [d [Q7 Q8]]] L. apply (K_same q l w w' d); auto. lia. intros. rewrite Q4, Q5. auto.
Qed.
Lemma K_updT q l w e st w' : updateThresholds w e st = Some w' -> K q l w w'.
Proof. intros H. apply K_quietlk; [apply quietT_quiet; eapply quiet_updT; eauto|]. now rewrite (updT_lk _ _ _ _ H). Qed.

(** One notification of l itself. *)
Lemma vcl q l w w' : l_onch (w_lk w l) = true -> lkActive (w_lk w l) = true -> P l w -> valueChanged l w = Some w' ->
  G q l w' /\ exists d, w_tr w' = w_tr w ++ d /\ (pubs l d = 0%nat -> rdo w' l = rdo w l /\ l_thr (w_lk w l) <> None).
Proof.
  intros O A HP H. unfold valueChanged in H. rewrite O, A in H. ob H. inversion H; subst; clear H.
  destruct (UI q l w true p HP E) as (U1 & U2 & U3 & _).
  pose proof (quietT_updI' _ _ _ _ E) as Q. destruct (q_tr _ _ _ Q) as [d [D _]].
  assert (AP : lkActive (w_lk (fst p) l) = true). { rewrite (core_active _ _ (q_core _ _ _ Q l)). auto. }
  destruct (snd p) eqn:S.
  - split. { apply (G_ext q l (fst p)); auto; unfold publish; rewrite AP; auto. }
    exists (d ++ [Pub l]). rewrite pub_active by auto. rewrite D, app_assoc. split; auto. rewrite pubs_app, pubs_pub. lia.
  - split; auto. exists d. split; auto. intros _. destruct (U2 eq_refl) as [->|[X _]]; [|discriminate]. split; auto.
    intros X. specialize (U3 eq_refl X). discriminate.
Qed.
Lemma vc_inactive l m w w' : l_onch (w_lk w l) = true -> lkActive (w_lk w l) = false -> valueChanged m w = Some w' -> w_lk w' l = w_lk w l.
Proof.
  intros O A H. destruct (Nat.eq_dec l m) as [->|N]; [|eapply vc_other; eauto]. unfold valueChanged in H. rewrite O, A in H. inversion H; auto.
Qed.
Lemma notify_inactive l ls : forall w w', l_onch (w_lk w l) = true -> lkActive (w_lk w l) = false -> notifyAll ls w = Some w' -> w_lk w' l = w_lk w l.
Proof.
  induction ls; cbn; intros w w' O A H. inversion H; auto. ob H. pose proof (vc_inactive _ _ _ _ O A E) as X.
  rewrite <- X. apply IHls; auto; now rewrite X.
Qed.
Lemma NA q l ls : forall w w', l_onch (w_lk w l) = true -> lkActive (w_lk w l) = true -> P l w -> notifyAll ls w = Some w' ->
  P l w' /\ (G q l w \/ (1 <= occ ls l)%nat -> G q l w') /\
  exists d, w_tr w' = w_tr w ++ d /\ (pubs l d = 0%nat -> rdo w' l = rdo w l /\ (l_thr (w_lk w l) = None -> l_thr (w_lk w' l) = None /\ occ ls l = 0%nat)).
Proof.
  induction ls as [|m ls IH]; cbn [notifyAll]; intros w w' O A HP H.
  - inversion H; subst. split; auto. split. { intros [|X]; auto. cbn in X. lia. } exists []. rewrite app_nil_r. split; auto.
  - ob H. pose proof (quiet_vc _ _ _ E) as Q.
    assert (O0 : l_onch (w_lk w0 l) = true) by (rewrite (core_onch _ _ (q_core _ _ _ Q l)); auto).
    assert (A0 : lkActive (w_lk w0 l) = true) by (rewrite (core_active _ _ (q_core _ _ _ Q l)); auto).
    destruct (Nat.eq_dec m l) as [->|N].
    + destruct (vcl q l w w0 O A HP E) as [G0 [d [D1 D2]]].
      destruct (IH w0 w' O0 A0 (proj1 G0) H) as (P1 & G1 & d' & D1' & D2').
      split; auto. split; [intros _; apply G1; auto|]. exists (d ++ d'). rewrite D1', D1, app_assoc. split; auto.
      rewrite pubs_app. intros Z. destruct D2 as [D2 D3]; [lia|]. destruct D2' as [D4 D5]; [lia|].
      split; [congruence|]. intros X. congruence.
    + pose proof (vc_other _ _ _ l E (not_eq_sym N)) as LK.
      assert (EV : forall e, e_val (w_ent w0 e) = e_val (w_ent w e)) by apply Q.
      assert (P0 : P l w0) by (apply (P_ext l w); auto).
      destruct (q_tr _ _ _ Q) as [d [D _]].
      destruct (IH w0 w' O0 A0 P0 H) as (P1 & G1 & d' & D1' & D2').
      split; auto. split.
      * intros [X|X]; apply G1; [left; apply (G_ext q l w); auto|right]. unfold occ in *. cbn in X. destruct (Nat.eq_dec m l); congruence.
      * exists (d ++ d'). rewrite D1', D, app_assoc. split; auto. rewrite pubs_app. intros Z. destruct D2' as [D4 D5]; [lia|].
        rewrite <- (rdo_ext l w w0) by auto. split; auto. rewrite LK in D5. intros X. destruct (D5 X) as [D6 D7]. split; auto.
        unfold occ in *. cbn. destruct (Nat.eq_dec m l); congruence.
Qed.
Lemma P_setVal l w e c : P l w -> (forall c0, e_val (w_ent w e) = Some c0 -> cvType c0 <> UNKNOWN_TYPE -> cvType c = cvType c0) -> P l (setVal w e c).
Proof.
  intros [OT HP] T. split; auto. cbn. destruct (l_thr (w_lk w l)) as [t|]; auto.
  destruct HP as (c' & e' & ec & A & B & C & D & E). unfold updf. destruct (Nat.eq_dec e' e) as [->|N].
  - exists c', e, c. rewrite Nat.eqb_refl. cbn. split; auto. split; auto. split; auto. split; auto.
    rewrite (T ec C); auto. rewrite <- D. unfold cvType. destruct t; cbn in E; destruct E as [E _]; rewrite E; discriminate.
  - exists c', e', ec. rewrite (proj2 (Nat.eqb_neq e' e)) by auto. auto.
Qed.
Lemma K_setVal q l w e c (n : bool) w' :
  (forall c0, e_val (w_ent w e) = Some c0 -> cvType c0 <> UNKNOWN_TYPE -> cvType c = cvType c0 /\ (n = false -> cv_v c = cv_v c0)) ->
  (n = false -> eqv (entV (w_ent w e)) (cv_v c)) ->
  (if n then notifyAll (e_lk (w_ent w e)) (setVal w e c) else Some (setVal w e c)) = Some w' -> K q l w w'.
Proof.
  intros TY EQ H.
  assert (L1 : listedO l w -> listedO l (setVal w e c)).
  { intros (A & B & C). split; auto. split; auto. intros e' He. destruct (C e' He). split; auto.
    cbn. unfold updf. destruct (Nat.eqb_spec e' e) as [->|]; auto. }
  assert (EVN : l_ent (w_lk w l) <> Some e -> forall e', l_ent (w_lk w l) = Some e' -> e_val (w_ent (setVal w e c) e') = e_val (w_ent w e')).
  { intros N e' He. cbn. rewrite updf_other; auto. congruence. }
  destruct n.
  - pose proof (quiet_notify _ _ _ H) as Q. destruct (q_tr _ _ _ Q) as [d [D _]]. exists d. split; [exact D|]. split.
    { intros O A. apply (notify_inactive l (e_lk (w_ent w e)) (setVal w e c)); auto. }
    intros L Gl. pose proof (L1 L) as LS. pose proof LS as (A & B & C).
    destruct (NA q l (e_lk (w_ent w e)) (setVal w e c) w' A B) as (P2 & G2 & d' & D' & Z); auto.
    { apply P_setVal; [apply Gl|]. intros c0 X Y. apply TY; auto. }
    assert (d' = d). { rewrite D in D'. apply app_inv_head in D'. auto. } subst d'.
    split. { destruct LS as (A' & B' & C'). split; [|split].
      - now rewrite (core_onch _ _ (q_core _ _ _ Q l)).
      - now rewrite (core_active _ _ (q_core _ _ _ Q l)).
      - intros e'. rewrite (core_ent _ _ (q_core _ _ _ Q l)), (q_next _ _ _ Q), (q_lks _ _ _ Q). apply C'. }
    split.
    { apply G2. destruct (l_ent (w_lk w l)) as [e'|] eqn:EN.
      - destruct (Nat.eq_dec e' e) as [->|N]; [right|left; apply (G_ext q l w); auto; rewrite EN; apply EVN; congruence].
        destruct L as (_ & _ & L3). apply L3; auto.
      - left. apply (G_ext q l w); auto. rewrite EN. discriminate. }
    intros PB. destruct (Z PB) as [Z1 Z2]. split; [|intros X; apply Z2, X]. rewrite Z1.
    destruct (l_ent (w_lk w l)) as [e'|] eqn:EN.
    + destruct (Nat.eq_dec e' e) as [->|N].
      * unfold rdo at 2. cbn. destruct (l_cv (w_lk w l)) as [c'|] eqn:CV; [unfold rdo; rewrite CV; apply eqv_refl|].
        exfalso. assert (TH : l_thr (w_lk w l) = None).
        { destruct Gl as [[_ HP] _]. destruct (l_thr (w_lk w l)); auto. destruct HP as (? & ? & ? & X & _). congruence. }
        destruct (Z2 TH) as [_ Z3]. destruct L as (_ & _ & L3). destruct (L3 e EN) as [_ L4]. lia.
      * rewrite (rdo_ext l w (setVal w e c)); auto; [apply eqv_refl|]. rewrite EN. apply EVN. congruence.
    + rewrite (rdo_ext l w (setVal w e c)); auto; [apply eqv_refl|]. rewrite EN. discriminate.
  - inversion H; subst; clear H. exists []. rewrite app_nil_r. split; auto. split; auto. intros L Gl. split; auto.
    destruct (l_ent (w_lk w l)) as [e'|] eqn:EN.
    2:{ split; [apply (G_ext q l w); auto; rewrite EN; discriminate|]. intros _. split; auto. rewrite (rdo_ext l w (setVal w e c)); auto; [apply eqv_refl|]. rewrite EN. discriminate. }
    destruct (Nat.eq_dec e' e) as [->|N].
    2:{ split; [apply (G_ext q l w); auto; rewrite EN; apply EVN; congruence|]. intros _. split; auto. rewrite (rdo_ext l w (setVal w e c)); auto; [apply eqv_refl|]. rewrite EN. apply EVN. congruence. }
    split.
    + split. { apply P_setVal; [apply Gl|]. intros c0 X Y. apply TY; auto. }
      split. { intros B T e' He. cbn in T, He. rewrite EN in He. inversion He; subst e'. cbn. rewrite updf_same. unfold entKnown. cbn.
        destruct Gl as (_ & HX & _). destruct (HX B T e EN) as [X|X]; [left|right; exact X]. rewrite <- (eqv_known _ _ (EQ eq_refl)).
        unfold entKnown in X. unfold entV. destruct (e_val (w_ent w e)); auto. }
      cbn. intros t c' e' ec T1 T2 T3 T4. rewrite EN in T3. inversion T3; subst e'. rewrite updf_same in T4. cbn in T4. inversion T4; subst ec.
      destruct Gl as [[_ HP] [_ HG]]. rewrite T1 in HP. destruct HP as (c1 & e1 & ec & X1 & X2 & X3 & X4 & X5).
      assert (e1 = e) by congruence. assert (c1 = c') by congruence. subst e1 c1.
      destruct (HG t c' e ec T1 T2 EN X3) as (Y1 & Y2 & Y3). split; auto. split; auto.
      assert (cv_v c = cv_v ec) as ->; auto. apply (TY ec X3); auto. rewrite <- X4. unfold cvType.
      destruct t; cbn in X5; destruct X5 as [X5 _]; rewrite X5; discriminate.
    + intros _. split; auto. unfold rdo. cbn. destruct (l_cv (w_lk w l)); [apply eqv_refl|]. unfold rd. cbn. rewrite EN, updf_same. cbn. auto.
Qed.
Lemma typed_ensure c0 t c : ensureCv (Some c0) t = Some (Some c) -> cvType c0 <> UNKNOWN_TYPE -> c = c0.
Proof.
  unfold ensureCv. intros H N. rewrite (proj2 (Z.eqb_neq _ _) N) in H.
  destruct (_ || _); [inversion H; auto|]. destruct (_ && _); [inversion H; auto|]. destruct (_ && _); inversion H; auto.
Qed.
Lemma typed_update c ts v p : cvUpdate c ts v = Some p -> cvType c <> UNKNOWN_TYPE -> cvType (fst p) = cvType c /\ (snd p = false -> cv_v (fst p) = cv_v c).
Proof.
  intros H N. unfold cvUpdate in H. rewrite (proj2 (Z.eqb_neq _ _) N) in H.
  assert (UN : forall c', snd (cvSetUnknown c' ts) = false -> cv_v (fst (cvSetUnknown c' ts)) = cv_v c').
  { intros c'. unfold cvSetUnknown. destruct (cvType c' =? UNKNOWN_TYPE); cbn; auto. unfold cvType. destruct (cv_v c'); cbn; congruence. }
  assert (ST : forall v', vtype v' = cvType c -> cvType (fst (cvStore c ts v')) = cvType c /\ (snd (cvStore c ts v') = false -> cv_v (fst (cvStore c ts v')) = cv_v c)).
  { intros v' T. unfold cvStore. destruct (_ || _); cbn; split; auto. discriminate. }
  assert (GEN : forall v', (if vtype v' =? cvType c then Some (cvStore c ts v') else None) = Some p -> cvType (fst p) = cvType c /\ (snd p = false -> cv_v (fst p) = cv_v c)).
  { intros v' X. destruct (Z.eqb_spec (vtype v') (cvType c)) as [T|T]; [|discriminate]. inversion X; subst. apply ST; exact T. }
  destruct v as [t|b|n|b|s|s|o|f|h|a|a|a|a]; try (exact (GEN _ H)).
  - inversion H; subst. split; auto. unfold cvSetUnknown. destruct (_ =? _); auto.
  - destruct (Z.eqb_spec (cvType c) REAL_TYPE) as [T|T].
    + inversion H; subst. apply ST. rewrite T. reflexivity.
    + destruct (Z.eqb_spec (cvType c) INTEGER_TYPE) as [T'|T']; [|discriminate]. inversion H; subst. apply ST. rewrite T'. reflexivity.
Qed.
Lemma K_entUpdate q l w e u w' : entUpdate w e u = Some w' -> K q l w w'.
Proof.
  intros H. unfold entUpdate, getE in H. destruct (live w e) eqn:LV; [|discriminate]. cbn [obind] in H.
  destruct u as [v|].
  - ob H. destruct o as [c|]; [|inversion H; apply K_refl]. ob H. cbv zeta in H.
    eapply K_setVal; [| |exact H].
    + intros c0 X Y. rewrite X in E. pose proof (typed_ensure _ _ _ E Y). subst c. apply (typed_update _ _ _ _ E0 Y).
    + intros F. eapply eqv_trans; [apply (ensureCv_eqv _ _ _ E)|]. eapply cvUpdate_eqv; eauto.
  - destruct (e_val (w_ent w e)) eqn:EV; [|inversion H; apply K_refl]. cbv zeta in H.
    eapply K_setVal; [| |exact H].
    + intros c0 X Y. rewrite EV in X. inversion X; subst c0. unfold cvSetUnknown. rewrite (proj2 (Z.eqb_neq _ _) Y). cbn. split; auto.
      unfold cvType. destruct (cv_v c); cbn; congruence.
    + intros F. unfold entV. rewrite EV. now apply cvSetUnknown_eqv.
Qed.
Lemma K_answers q l e s us : forall w w', answers w e s us = Some w' -> K q l w w'.
Proof.
  induction us; cbn; intros w w' H. { inversion H; apply K_refl. }
  ob H. eapply K_trans; [apply K_emit|]. eapply K_trans; [eapply K_entUpdate; eauto|auto].
Qed.
Lemma K_registerE q l m w e st ans w' : registerE w e st m ans = Some w' -> K q l w w'.
Proof.
  intros H. unfold registerE, getE in H. destruct (live w e); [|discriminate]. cbn [obind] in H.
  set (w1 := setEnt w e _) in H.
  assert (N1 : K q l w w1).
  { apply (K_same q l w w1 []); [cbn; now rewrite app_nil_r|auto|cbn; lia|]. intros e' _. cbn. unfold updf. destruct (Nat.eqb_spec e' e) as [->|]; auto.
    cbn. rewrite occ_app. split; auto. lia. }
  destruct (match e_val (w_ent w e) with None => true | Some c => _ end).
  - eapply K_trans; [exact N1|]. eapply K_trans; [apply K_emit|]. eapply K_answers; eauto.
  - inversion H; subst; auto.
Qed.
(** Registration of l itself. *)
Lemma register_self q l w e st ans w' : l_onch (w_lk w l) = true -> lkActive (w_lk w l) = true -> l_ent (w_lk w l) = Some e -> (e < w_next w)%nat ->
  G q l w -> registerE w e st l ans = Some w' -> 
  listedO l w' /\ G q l w' /\ exists d, w_tr w' = w_tr w ++ d /\ (pubs l d = 0%nat -> l_thr (w_lk w l) = None -> l_thr (w_lk w' l) = None).
Proof.
  intros O A EN LT Gl H. unfold registerE, getE in H. destruct (live w e); [|discriminate]. cbn [obind] in H.
  set (w1 := setEnt w e _) in H.
  assert (L1 : listedO l w1).
  { split; auto. split; auto. cbn. rewrite EN. intros e' X. inversion X; subst e'. split; auto. rewrite updf_same. cbn. rewrite occ_app. unfold occ. cbn.
    destruct (Nat.eq_dec l l); [lia|congruence]. }
  assert (G1 : G q l w1). { apply (G_ext q l w); auto. intros e' He. cbn. unfold updf. destruct (Nat.eqb_spec e' e) as [->|]; auto. }
  destruct (match e_val (w_ent w e) with None => true | Some c => _ end).
  - assert (KK : K q l w1 w'). { eapply K_trans; [apply K_emit|]. eapply K_answers; eauto. }
    destruct KK as [d [D [_ X]]]. destruct (X L1 G1) as (Y1 & Y2 & Y3). split; auto. split; auto. exists d. split; auto. intros Z. apply Y3; auto.
  - inversion H; subst. split; auto. split; auto. exists []. split; auto. cbn. now rewrite app_nil_r.
Qed.
Lemma K_unregisterE q l m w e st w' : m <> l -> unregisterE w e st m = Some w' -> K q l w w'.
Proof.
  intros N H. unfold unregisterE, getE in H. destruct (live w e); [|discriminate]. cbn [obind] in H.
  destruct (e_lk (w_ent w e)) as [|y r] eqn:EL; [inversion H; apply K_refl|].
  destruct (negb _); [inversion H; apply K_refl|]. rewrite <- EL in *.
  set (ls := if Nat.eqb (last (e_lk (w_ent w e)) m) m then _ else _) in H.
  assert (OL : occ ls l = occ (e_lk (w_ent w e)) l).
  { unfold ls. destruct (Nat.eqb_spec (last (e_lk (w_ent w e)) m) m).
    - rewrite (occ_removelast m); auto. rewrite (proj2 (Nat.eqb_neq l m)) by auto. lia. rewrite EL. discriminate.
    - rewrite occ_removeFirst. rewrite (proj2 (Nat.eqb_neq l m)) by auto. lia. }
  clearbody ls. cbv zeta in H.
  assert (N1 : forall t, K q l w (setEnt w e (mkEnt (e_val (w_ent w e)) ls t))).
  { intros t. apply (K_same q l w _ []); [cbn; now rewrite app_nil_r|auto|cbn; lia|]. intros e' _. cbn. unfold updf. destruct (Nat.eqb_spec e' e) as [->|]; auto.
    cbn [e_val e_lk]. rewrite OL. auto. }
  destruct ls as [|x ls].
  - inversion H; subst. apply (N1 false).
  - destruct (e_thr (w_ent w e)); [|inversion H; subst; apply N1].
    eapply K_trans; [apply N1|]. eapply K_updT; eauto.
Qed.
Lemma unregisterE_lk w e st m w' : unregisterE w e st m = Some w' -> w_lk w' = w_lk w /\ exists d, w_tr w' = w_tr w ++ d.
Proof.
  intros H. unfold unregisterE, getE in H. destruct (live w e); [|discriminate]. cbn [obind] in H.
  assert (X : forall a, exists d, w_tr (setEnt w e a) = w_tr w ++ d) by (intros; exists []; cbn; now rewrite app_nil_r).
  destruct (e_lk (w_ent w e)) as [|y r] eqn:EL; [inversion H; subst; split; auto; exists []; now rewrite app_nil_r|].
  destruct (negb _); [inversion H; subst; split; auto; exists []; now rewrite app_nil_r|].
  set (ls := if Nat.eqb (last (y :: r) m) m then _ else _) in H. clearbody ls. cbv zeta in H. destruct ls.
  - inversion H; subst. auto.
  - destruct (e_thr (w_ent w e)); [|inversion H; subst; auto]. pose proof (updT_lk _ _ _ _ H) as LK.
    destruct (q_tr _ _ _ (quiet_updT _ _ _ _ H)) as [d [D _]]. split; [now rewrite LK|]. exists d. exact D.
Qed.
Lemma K_ensureE q l w s : K q l w (fst (ensureE w s)).
Proof.
  unfold ensureE. destruct (findKey s (w_map w)); cbn [fst]; [apply K_refl|].
  apply (K_same q l w _ []); [cbn; now rewrite app_nil_r|auto|cbn; lia|]. intros e L. cbn. rewrite updf_other by lia. auto.
Qed.
Section Other.
Variable q : bool.
Variables l m : nat.
Hypothesis N : m <> l.
Lemma K_ensureRegistered w ans w' : ensureRegistered w m ans = Some w' -> K q l w w'.
Proof.
  unfold ensureRegistered. destruct (l_reg _). { intros H; inversion H; apply K_refl. }
  intros H. ob H. ob H. inversion H; subst. eapply K_trans; [eapply K_registerE; eauto|now apply K_setLk].
Qed.
Lemma K_unregister w w' : unregister w m = Some w' -> K q l w w'.
Proof.
  unfold unregister. destruct (l_reg _). 2:{ intros H; inversion H; apply K_refl. }
  intros H. ob H. ob H. inversion H; subst. eapply K_trans; [eapply K_unregisterE; eauto|now apply K_setLk].
Qed.
Lemma K_dropThr w : K q l w (dropThr w m).
Proof. unfold dropThr. destruct (l_thr _); [now apply K_setLk|apply K_refl]. Qed.
Lemma K_invalidateOld w w' : invalidateOld w m = Some w' -> K q l w w'.
Proof.
  unfold invalidateOld. intros H. ob H. inversion H; subst. eapply K_trans; [eapply K_unregister; eauto|].
  eapply K_trans; [now apply (K_setLk q l m)|]. destruct (l_onch _); [apply K_dropThr|apply K_refl].
Qed.
Lemma K_handleActivate w ans w' : handleActivate w m ans = Some w' -> K q l w w'.
Proof.
  unfold handleActivate. set (w1 := if l_const (w_lk w m) then w else _).
  assert (S1 : K q l w w1).
  { unfold w1. destruct (l_const _); [apply K_refl|]. destruct (l_env _); now apply K_setLk. }
  clearbody w1. cbv zeta. set (w2 := match l_ent (w_lk w1 m) with Some _ => w1 | None => _ end).
  assert (S2 : K q l w w2).
  { eapply K_trans; [exact S1|]. unfold w2. destruct (l_ent _); [apply K_refl|]. destruct (l_known _); [|apply K_refl].
    eapply K_trans; [apply K_ensureE|now apply K_setLk]. }
  clearbody w2. destruct (l_ent (w_lk w2 m)); intros H; [|inversion H; subst; auto].
  eapply K_trans; [exact S2|]. eapply K_ensureRegistered; eauto.
Qed.
Lemma K_updI w vc p : updateInternal w m vc = Some p -> K q l w (fst p).
Proof. intros H. apply K_quietlk; [eapply quietT_updI'; eauto|]. eapply updI_other; eauto. Qed.
Lemma K_opActivate w ans w' : opActivate w m ans = Some w' -> K q l w w'.
Proof.
  intros H. unfold opActivate in H. eapply K_trans; [apply (K_setLk q l m w); auto|].
  destruct (Nat.eqb _ 0). 2:{ inversion H. apply K_refl. }
  ob H. eapply K_trans; [eapply K_handleActivate; eauto|]. destruct (l_onch _); [|inversion H; subst; apply K_refl].
  ob H. ob H. inversion H; subst. eapply K_trans; [now apply (K_setLk q l m)|].
  eapply K_trans; [eapply K_updI; eauto|]. destruct b; [apply K_publish|apply K_refl].
Qed.
Lemma K_opDeactivate w w' : opDeactivate w m = Some w' -> K q l w w'.
Proof.
  intros H. unfold opDeactivate in H. destruct (l_cnt (w_lk w m)) as [|n]; [discriminate|].
  eapply K_trans; [apply (K_setLk q l m w); auto|]. cbv zeta in H.
  destruct (Nat.eqb n 0). 2:{ inversion H. apply K_refl. }
  ob H. inversion H; subst; clear H.
  assert (S1 : K q l (setLkCnt w m n) w0).
  { destruct (l_known (w_lk w m)); [eapply K_unregister; eauto|]. inversion E. apply K_refl. }
  eapply K_trans; [exact S1|].
  set (w3 := if l_const _ then _ else _).
  assert (S3 : K q l w0 w3). { unfold w3. destruct (l_const _); [apply K_refl|now apply K_setLk]. }
  clearbody w3. eapply K_trans; [exact S3|]. destruct (l_onch (w_lk w0 m)); [|apply K_refl].
  eapply K_trans; [now apply (K_setLk q l m)|apply K_dropThr].
Qed.
Lemma K_hci w ans p : handleChangeInternal w m ans = Some p -> K q l w (fst p).
Proof.
  unfold handleChangeInternal. destruct (l_env (w_lk w m)) as [s|].
  - intros H. ob H. cbv zeta in H. ob H. inversion H; subst; cbn [fst].
    eapply K_trans; [now apply (K_setLk q l m)|].
    eapply K_trans with (b := w0). { destruct (_ && _) in E; [eapply K_invalidateOld; eauto|inversion E; apply K_refl]. }
    eapply K_trans; [apply K_ensureE|]. eapply K_trans; [now apply (K_setLk q l m)|]. eapply K_ensureRegistered; eauto.
  - intros H. ob H. inversion H; subst; cbn [fst]. eapply K_trans; [now apply (K_setLk q l m)|].
    destruct (l_known _) in E; [eapply K_invalidateOld; eauto|inversion E; apply K_refl].
Qed.
Lemma K_handleChange w ans w' : handleChange w m ans = Some w' -> K q l w w'.
Proof.
  intros H. unfold handleChange in H. destruct (lkActive _); [|inversion H; apply K_refl].
  ob H. eapply K_trans; [eapply K_hci; eauto|]. destruct (l_onch (w_lk w m)).
  - ob H. inversion H; subst. eapply K_trans; [eapply K_updI; eauto|]. destruct (snd p0); [apply K_publish|apply K_refl].
  - inversion H; subst. destruct (snd p); [apply K_publish|apply K_refl].
Qed.
End Other.
