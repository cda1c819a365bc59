(** Invariants of the state cache model: every operation preserves them. *)
From Coq Require Import Permutation.
From Verif Require Import ValueModel RealModel RealProofs CacheModel CacheSpec OrderProps CacheProofs CacheProofs2 CacheFresh CacheProofs3.
Open Scope Z_scope.

(** Fields of a lookup which the cache itself never changes. *)
Definition fixed (x : lk) := (l_onch x, l_const x, l_tolconst x, l_cnt x, l_env x, l_tol x).
Lemma core_fixed x y : core x = core y -> fixed x = fixed y.
Proof. intros H. inversion H. unfold fixed. congruence. Qed.
Lemma fixed_core x : fixed (core x) = fixed x. Proof. reflexivity. Qed.


Lemma restL_fields w w' l : restL w l -> w_map w' = w_map w -> w_next w' = w_next w ->
  l_const (w_lk w' l) = l_const (w_lk w l) -> l_cnt (w_lk w' l) = l_cnt (w_lk w l) -> l_st (w_lk w' l) = l_st (w_lk w l) ->
  l_known (w_lk w' l) = l_known (w_lk w l) -> l_ent (w_lk w' l) = l_ent (w_lk w l) -> l_reg (w_lk w' l) = l_reg (w_lk w l) ->
  l_env (w_lk w' l) = l_env (w_lk w l) -> restL w' l.
Proof.
  unfold restL. intros R M N -> -> -> -> -> -> ->. rewrite M, N.
  destruct R as (A & B & D & E & F & G). repeat (split; [assumption|]).
  intros e He. destruct (G e He) as [G1 G2]. split; auto. rewrite (live_map w w') by auto. auto.
Qed.
Lemma INV_quiet w w' : quiet w w' -> INV w -> INV w'.
Proof.
  intros Q [V R]. split.
  - eapply inv_ext; [|eapply inv_quiet; eauto]. intros l. unfold regs. symmetry. apply core_reg, Q.
  - intros l. eapply restL_same; [apply semi_same, quiet_semi; eauto|auto].
Qed.
(** Changing fields of l which the invariant does not mention. *)
Lemma INV_setLk w l y : INV w ->
  l_const y = l_const (w_lk w l) -> l_cnt y = l_cnt (w_lk w l) -> l_st y = l_st (w_lk w l) -> l_known y = l_known (w_lk w l) ->
  l_ent y = l_ent (w_lk w l) -> l_reg y = l_reg (w_lk w l) -> l_env y = l_env (w_lk w l) -> INV (setLk w l y).
Proof.
  intros [V R] E1 E2 E3 E4 E5 E6 E7. apply (INV_of l w); auto.
  - apply upto_setLk.
  - apply inv_regs_setLk; auto.
  - apply (restL_fields w); auto; cbn; rewrite updf_same; auto.
Qed.
Lemma upto_fixed l w w' m : upto l w w' -> m <> l -> fixed (w_lk w' m) = fixed (w_lk w m).
Proof. intros U N. apply core_fixed. now apply U. Qed.
Lemma upto_quiet l w w' : quiet w w' -> upto l w w'.
Proof. intros Q. apply upto_same, semi_same, quiet_semi, Q. Qed.

Lemma quietT_updI' w l vc p : updateInternal w l vc = Some p -> quiet w (fst p).
Proof. intros H. apply quietT_quiet. eapply quiet_updI; eauto. Qed.
Lemma quiet_core_l P w w' l : quietP P w w' -> core (w_lk w' l) = core (w_lk w l).
Proof. intros Q. apply Q. Qed.

Definition fixedAct (x y : lk) (n : nat) : Prop :=
  l_onch x = l_onch y /\ l_const x = l_const y /\ l_tolconst x = l_tolconst y /\ l_env x = l_env y /\ l_tol x = l_tol y /\ l_cnt x = n.

(** Fields kept by handleActivate which its specification above does not mention. *)
Lemma ensureE_lk w s : w_lk (fst (ensureE w s)) = w_lk w.
Proof. unfold ensureE. destruct (findKey s (w_map w)); auto. Qed.
Definition stat (x : lk) := (l_onch x, l_const x, l_tolconst x, l_env x, l_tol x, l_cnt x).
Lemma core_stat x y : core x = core y -> stat x = stat y.
Proof. intros H. inversion H. unfold stat. congruence. Qed.
Lemma entUpdate_core w e u w' l : entUpdate w e u = Some w' -> core (w_lk w' l) = core (w_lk w l).
Proof.
  unfold entUpdate. intros H. ob H. destruct u.
  - ob H. destruct o; [ob H|inversion H; auto]. destruct (snd p); [|inversion H; auto].
    apply quiet_notify in H. rewrite (q_core _ _ _ H l). reflexivity.
  - destruct (e_val e0); [|inversion H; auto]. destruct (snd _) in H; [|inversion H; auto].
    apply quiet_notify in H. rewrite (q_core _ _ _ H l). reflexivity.
Qed.
Lemma answers_core e s l us : forall w w', answers w e s us = Some w' -> core (w_lk w' l) = core (w_lk w l).
Proof.
  induction us; cbn; intros w w' H. inversion H; auto. ob H. rewrite (IHus _ _ H). rewrite (entUpdate_core _ _ _ _ l E). reflexivity.
Qed.
Lemma registerE_core w e st m ans w' l : registerE w e st m ans = Some w' -> core (w_lk w' l) = core (w_lk w l).
Proof.
  unfold registerE. intros H. ob H. destruct (match e_val e0 with None => _ | Some _ => _ end).
  - apply (answers_core _ _ l) in H. rewrite H. reflexivity.
  - inversion H; auto.
Qed.
Lemma ensureRegistered_stat w m ans w' l : ensureRegistered w m ans = Some w' -> stat (w_lk w' l) = stat (w_lk w l).
Proof.
  unfold ensureRegistered. destruct (l_reg _). { intros H; inversion H; auto. }
  intros H. ob H. ob H. inversion H; subst. cbn. unfold updf. destruct (Nat.eqb_spec l m) as [->|].
  - cbn. apply (registerE_core _ _ _ _ _ _ m) in E0. apply core_stat in E0. exact E0.
  - apply core_stat. eapply registerE_core; eauto.
Qed.
Lemma handleActivate_stat w m ans w' l : handleActivate w m ans = Some w' -> stat (w_lk w' l) = stat (w_lk w l).
Proof.
  unfold handleActivate. set (w1 := if l_const (w_lk w m) then w else _).
  assert (S1 : stat (w_lk w1 l) = stat (w_lk w l)).
  { unfold w1. destruct (l_const _); auto. destruct (l_env (w_lk w m)); cbn; unfold updf; destruct (Nat.eqb_spec l m) as [->|]; auto. }
  clearbody w1. cbv zeta. set (w2 := match l_ent (w_lk w1 m) with Some _ => w1 | None => _ end).
  assert (S2 : stat (w_lk w2 l) = stat (w_lk w l)).
  { rewrite <- S1. unfold w2. destruct (l_ent _); auto. destruct (l_known _); auto. cbn. unfold updf.
    rewrite ensureE_lk. destruct (Nat.eqb_spec l m) as [->|]; auto. }
  clearbody w2. destruct (l_ent (w_lk w2 m)); intros H; [|inversion H; subst; auto].
  rewrite (ensureRegistered_stat _ _ _ _ l H). auto.
Qed.
Lemma unregister_stat w m w' l : unregister w m = Some w' -> stat (w_lk w' l) = stat (w_lk w l).
Proof.
  unfold unregister. destruct (l_reg _). 2:{ intros H; inversion H; auto. }
  intros H. ob H. ob H. inversion H; subst.
  assert (C : forall k, core (w_lk w0 k) = core (w_lk w k)).
  { intros k. unfold unregisterE in E0. ob E0. destruct (e_lk e) as [|y r]; [inversion E0; auto|].
    destruct (negb _); [inversion E0; auto|].
    cbv zeta in E0. set (ls := if Nat.eqb (last (y :: r) m) m then _ else _) in E0. clearbody ls. destruct ls; [inversion E0; auto|].
    destruct (e_thr e); [|inversion E0; auto]. apply quiet_updT in E0. rewrite (q_core _ _ _ E0 k). reflexivity. }
  cbn. unfold updf. destruct (Nat.eqb_spec l m) as [->|].
  - specialize (C m). apply core_stat in C. exact C.
  - apply core_stat, C.
Qed.
Lemma dropThr_core w m l : core (w_lk (dropThr w m) l) = core (w_lk w l).
Proof. unfold dropThr. destruct (l_thr _); auto. apply (quiet_TC soft w m None None). Qed.
Lemma quiet_dropThr w m : quiet w (dropThr w m).
Proof. unfold dropThr. destruct (l_thr _). apply quiet_TC. apply quiet_refl. Qed.
Lemma invalidateOld_stat w m w' l : invalidateOld w m = Some w' -> stat (w_lk w' l) = stat (w_lk w l).
Proof.
  unfold invalidateOld. intros H. ob H. inversion H; subst. rewrite <- (unregister_stat _ _ _ l E).
  destruct (l_onch _); [rewrite (core_stat _ _ (dropThr_core _ m l))|]; cbn; unfold updf; destruct (Nat.eqb_spec l m) as [->|]; auto.
Qed.
Lemma handleChangeInternal_stat w m ans p l : handleChangeInternal w m ans = Some p -> stat (w_lk (fst p) l) = stat (w_lk w l).
Proof.
  unfold handleChangeInternal. destruct (l_env (w_lk w m)) as [s|].
  - intros H. ob H. cbv zeta in H. ob H. inversion H; subst; cbn [fst].
    rewrite (ensureRegistered_stat _ _ _ _ l E0).
    assert (S0 : stat (w_lk w0 l) = stat (w_lk w l)).
    { destruct (_ && _) in E; [rewrite (invalidateOld_stat _ _ _ l E)|inversion E; subst];
        cbn; unfold updf; destruct (Nat.eqb_spec l m) as [->|]; auto. }
    rewrite <- S0. cbn. unfold updf. rewrite ensureE_lk. destruct (Nat.eqb_spec l m) as [->|]; auto.
  - intros H. ob H. inversion H; subst; cbn [fst].
    destruct (l_known _) in E; [rewrite (invalidateOld_stat _ _ _ l E)|inversion E; subst];
        cbn; unfold updf; destruct (Nat.eqb_spec l m) as [->|]; auto.
Qed.

(** ** activate *)
Lemma opActivate_INV w l ans w' : INV w -> opActivate w l ans = Some w' -> INV w'.
Proof.
  intros V H. unfold opActivate in H. destruct (Nat.eqb_spec (l_cnt (w_lk w l)) 0) as [C0|C0].
  - rewrite C0 in H. ob H. destruct (handleActivate_spec w l ans w0 V C0 E) as (A & B & C & D & _).
    assert (V0 : INV w0) by (apply (INV_of l w); auto; apply V).
    destruct (l_onch (w_lk w l)) eqn:O.
    + ob H. ob H. inversion H; subst; clear H. apply quietT_updI' in E0.
      assert (V1 : INV (fst p)).
      { eapply INV_quiet; [exact E0|]. apply INV_setLk; auto. }
      destruct b; auto. eapply INV_quiet; [apply quiet_publish|auto].
    + inversion H; subst; auto.
  - inversion H; subst; clear H. destruct V as [V R]. apply (INV_of l w); auto.
    + apply upto_setLk.
    + apply inv_regs_setLk; auto.
    + destruct (R l) as (A & B & D & E & F & G). unfold restL. cbn -[okOpt]. rewrite updf_same. cbn -[okOpt].
      assert (P : (0 < l_cnt (w_lk w l))%nat) by lia. specialize (E P).
      split; auto. split; auto. split; [|split; auto].
      * rewrite D. intuition.
      * split; auto. intros; lia.
Qed.

(** ** deactivate *)
Lemma opDeactivate_INV w l w' : INV w -> opDeactivate w l = Some w' -> INV w'.
Proof.
  intros [V R] H. unfold opDeactivate in H. destruct (l_cnt (w_lk w l)) as [|n] eqn:C0; [discriminate|].
  destruct (R l) as (A & B & D & E & F & G).
  assert (P : (0 < l_cnt (w_lk w l))%nat) by lia. specialize (E P).
  destruct (Nat.eqb_spec n 0) as [->|N].
  - ob H. inversion H; subst; clear H.
    assert (VA : inv (regs (setLkCnt w l 0)) (setLkCnt w l 0)) by (apply inv_regs_setLk; auto).
    assert (XA : w_lk (setLkCnt w l 0) l = setCnt 0 (w_lk w l)) by (cbn; apply updf_same).
    assert (W0 : inv (regs w0) w0 /\ upto l w w0 /\ core (w_lk w0 l) = core (setReg false (setCnt 0 (w_lk w l))) /\ w_map w0 = w_map w /\ w_next w0 = w_next w).
    { destruct (l_known (w_lk w l)) eqn:K.
      - destruct (unreg_spec _ _ _ VA E0) as (P1 & P2 & P3 & P4 & P5 & _). rewrite XA in P3.
        split; auto. split; auto. eapply upto_trans; [apply upto_setLk|exact P2].
      - inversion E0; subst. split; auto. split; [apply upto_setLk|]. rewrite XA. split; auto.
        assert (l_reg (w_lk w l) = false) as RF.
        { destruct (l_reg (w_lk w l)) eqn:RG; auto. destruct (proj1 D eq_refl) as [_ X]. destruct (l_env (w_lk w l)); [|congruence]. destruct E; congruence. }
        unfold core, setReg, setCnt. cbn. now rewrite RF. }
    destruct W0 as (V0 & U0 & X0 & M0 & N0). apply core_fields in X0. cbn in X0.
    destruct X0 as (Y1 & Y2 & Y3 & Y4 & Y5 & Y6 & Y7 & Y8 & Y9 & _).
    set (w3 := if l_const (w_lk w0 l) then w0 else _).
    assert (V3 : INV w3).
    { apply (INV_of l w); auto.
      - unfold w3. destruct (l_const (w_lk w0 l)); auto. eapply upto_trans; [exact U0|apply upto_setLk].
      - unfold w3. destruct (l_const (w_lk w0 l)); auto. apply inv_regs_setLk; auto.
      - unfold w3. rewrite Y2. destruct (l_const (w_lk w l)) eqn:K.
        + unfold restL. rewrite Y2, Y4, Y5, Y6, Y7, Y8, Y9, M0, N0. split; auto. split; [intros; apply B; auto|].
          split; [split; [discriminate|lia]|]. split; [lia|]. split; [congruence|].
          intros e He. destruct (G e He). split; auto. rewrite (live_map w w0) by auto. auto.
        + unfold restL. cbn -[okOpt]. rewrite updf_same. cbn -[okOpt]. rewrite Y2, Y4, Y5, Y6, Y8, Y9, M0, N0.
          split; auto. split; [congruence|]. split; [split; [discriminate|lia]|]. split; [lia|]. split; auto. discriminate. }
    clearbody w3. destruct (l_onch (w_lk w0 l)); auto.
    eapply INV_quiet; [apply quiet_dropThr|]. apply INV_setLk; auto.
  - inversion H; subst; clear H. apply (INV_of l w); auto.
    + apply upto_setLk.
    + apply inv_regs_setLk; auto.
    + unfold restL. cbn -[okOpt]. rewrite updf_same. cbn -[okOpt].
      split; auto. split; auto. split; [|split; auto].
      * rewrite D. split; intros [? ?]; split; auto; lia.
      * split; auto. intros; lia.
Qed.

(** ** handleChange *)
Lemma invalidate_spec w l w' : inv (regs w) w -> invalidateOld w l = Some w' ->
  inv (regs w') w' /\ upto l w w' /\ core (w_lk w' l) = core (setEn (l_st (w_lk w l)) (l_known (w_lk w l)) None (setReg false (w_lk w l))) /\
  w_map w' = w_map w /\ w_next w' = w_next w /\ (FR w -> FR w').
Proof.
  intros V H. unfold invalidateOld in H. ob H. inversion H; subst; clear H.
  destruct (unreg_spec _ _ _ V E) as (P1 & P2 & P3 & P4 & P5 & P6).
  pose proof (core_fields _ _ P3) as F. cbn in F. destruct F as (Y1 & Y2 & Y3 & Y4 & Y5 & Y6 & Y7 & Y8 & Y9 & Y10 & Y11).
  set (w2 := setLkEnt w0 l _ _ None).
  assert (W2 : inv (regs w2) w2 /\ upto l w w2 /\ core (w_lk w2 l) = core (setEn (l_st (w_lk w l)) (l_known (w_lk w l)) None (setReg false (w_lk w l))) /\ w_map w2 = w_map w /\ w_next w2 = w_next w /\ (FR w -> FR w2)).
  { split; [apply inv_regs_setLk; auto|]. split; [eapply upto_trans; [exact P2|apply upto_setLk]|].
    split; [unfold w2; cbn; rewrite updf_same; unfold core; cbn; congruence|].
    split; auto. split; auto. intros. apply FR_setLk; auto. }
  clearbody w2. destruct W2 as (Q1 & Q2 & Q3 & Q4 & Q5 & Q6). destruct (l_onch (w_lk w l)); [|repeat (split; auto)].
  pose proof (quiet_dropThr w2 l) as Q. split; [|split; [|split; [|split; [|split]]]].
  - eapply inv_ext; [|eapply inv_quiet; eauto]. intros m. unfold regs. symmetry. apply core_reg, Q.
  - eapply upto_trans; [exact Q2|apply upto_quiet; auto].
  - rewrite (q_core _ _ _ Q l). auto.
  - rewrite (q_map _ _ _ Q). auto.
  - rewrite (q_next _ _ _ Q). auto.
  - intros. eapply FR_quiet; eauto.
Qed.
(** Before the change of the parameters is handled. *)
Definition pre (w : world) (l : nat) : Prop :=
  inv (regs w) w /\ (forall m, m <> l -> restL w m) /\ okOpt (l_env (w_lk w l)) /\ (l_const (w_lk w l) = true -> l_env (w_lk w l) <> None) /\ (0 < l_cnt (w_lk w l))%nat /\
  l_reg (w_lk w l) = l_known (w_lk w l) /\ 
  (if l_known (w_lk w l) then okLkState (l_st (w_lk w l)) /\ exists e, l_ent (w_lk w l) = Some e /\ findKey (l_st (w_lk w l)) (w_map w) = Some e
   else l_ent (w_lk w l) = None).
Lemma hci_spec w l ans p : pre w l -> handleChangeInternal w l ans = Some p -> INV (fst p) /\ (FR w -> FR (fst p)).
Proof.
  intros (V & R & OK & K & P & RG & E) H. unfold handleChangeInternal in H.
  destruct (l_env (w_lk w l)) as [s|] eqn:EV.
  - set (w1 := setLkEnt w l (l_st (w_lk w l)) true (l_ent (w_lk w l))) in *.
    assert (V1 : inv (regs w1) w1) by (apply inv_regs_setLk; auto).
    assert (U1 : upto l w w1) by apply upto_setLk.
    assert (X1 : w_lk w1 l = setEn (l_st (w_lk w l)) true (l_ent (w_lk w l)) (w_lk w l)) by (cbn; apply updf_same).
    assert (M1 : w_map w1 = w_map w /\ w_next w1 = w_next w) by auto.
    assert (FR1 : FR w -> FR w1) by apply FR_setLk. clearbody w1.
    ob H. rename w0 into w2. cbv zeta in H. ob H. inversion H; subst p; clear H. cbn [fst].
    assert (Hs : okState s) by apply OK.
    assert (FR2 : FR w1 -> FR w2).
    { destruct (_ && _) in E0; [apply (invalidate_spec _ _ _ V1 E0)|inversion E0; auto]. }
    (* state after dropping the old entry *)
    assert (W2 : inv (regs w2) w2 /\ upto l w w2 /\ l_env (w_lk w2 l) = Some s /\
       l_cnt (w_lk w2 l) = l_cnt (w_lk w l) /\
       (l_reg (w_lk w2 l) = false \/ (l_reg (w_lk w2 l) = true /\ exists e, l_ent (w_lk w2 l) = Some e /\ findKey s (w_map w2) = Some e))).
    { destruct (l_known (w_lk w l)) eqn:KN; cbn [andb negb] in E0.
      - destruct E as [Z1 [e [Z2 Z3]]]. destruct (state_eq s (l_st (w_lk w l))) eqn:SE; cbn [negb] in E0.
        + inversion E0; subst w2. rewrite X1. cbn. rewrite EV. split; auto. split; auto. split; auto. split; auto.
          right. split; auto. exists e. split; auto. destruct M1 as [-> _]. rewrite <- Z3.
          apply (inv_find_cong (regs w) w); auto. apply Z1. apply state_eq_key; auto.
        + destruct (invalidate_spec _ _ _ V1 E0) as (Q1 & Q2 & Q3 & Q4 & Q5 & Q6). rewrite X1 in Q3. apply core_fields in Q3. cbn in Q3.
          destruct Q3 as (Y1 & Y2 & Y3 & Y4 & Y5 & Y6 & Y7 & Y8 & Y9 & _).
          rewrite Y4, Y8, Y9. split; auto. split; [eapply upto_trans; eauto|]. auto.
      - inversion E0; subst w2. rewrite X1. cbn. rewrite EV, RG. split; auto. }
    clear E0. destruct W2 as (V2 & U2 & EV2 & C2 & RG2).
    destruct (ensureE_spec (regs w2) w2 s V2 Hs) as [P1 [P2 [P3 [P4 [P5 [P6 P7]]]]]].
    set (wE := fst (ensureE w2 s)) in *. set (e := snd (ensureE w2 s)) in *.
    assert (FR3 : FR w2 -> FR (setLkEnt wE l s true (Some e))) by (intros; apply FR_setLk; eapply FR_ensureE; eauto).
    assert (UE : upto l w wE). { eapply upto_trans; [exact U2|apply upto_ensureE; auto]. }
    assert (VE : inv (regs wE) wE). { eapply inv_ext; [|exact P1]. intros; unfold regs; now rewrite P4. }
    set (w3 := setLkEnt wE l s true (Some e)) in *.
    assert (X3 : w_lk w3 l = setEn s true (Some e) (w_lk w2 l)). { unfold w3. cbn. rewrite updf_same, P4. reflexivity. }
    assert (LT : (e < w_next wE)%nat). { pose proof P3 as P3'. apply findKey_in in P3' as [k [I _]]. eapply i_lt; eauto. }
    assert (FIN : forall w', inv (regs w') w' -> upto l w w' -> core (w_lk w' l) = core (setReg true (setEn s true (Some e) (w_lk w2 l))) ->
       w_map w' = w_map wE -> w_next w' = w_next wE -> INV w').
    { intros w' V' U' X' M' N'. split; auto. intros m. destruct (Nat.eq_dec m l) as [->|NE]; [|eapply upto_restL; eauto].
      apply core_fields in X'. cbn in X'. destruct X' as (Y1 & Y2 & Y3 & Y4 & Y5 & Y6 & Y7 & Y8 & Y9 & _).
      unfold restL. rewrite Y2, Y4, Y5, Y6, Y7, Y8, Y9, M', N', EV2, C2. split; auto. split; [auto|].
      split; [split; auto; split; auto; discriminate|]. split. { intros _. split; auto. split; auto. exists e. auto. }
      split; [lia|]. intros e' He. inversion He; subst e'. auto. }
    destruct RG2 as [RF|[RT [e0 [R1 R2]]]].
    + assert (V3 : inv (regs w3) w3). { apply inv_regs_setLk; auto. left. now rewrite P4. }
      destruct (ensureReg_spec w3 l ans w0 e V3) as (Q1 & Q2 & Q3 & Q4 & Q5 & Q6 & Q7); auto; try (rewrite X3; auto).
      split; [|intros FRw; apply Q7; auto]. apply FIN; auto.
      * eapply upto_trans; [exact UE|]. eapply upto_trans; [apply upto_setLk|exact Q2].
      * rewrite Q3, X3. reflexivity.
    + assert (e0 = e). { pose proof (g_find _ _ P2 _ _ R2). congruence. } subst e0.
      unfold ensureRegistered in E1. rewrite X3 in E1. cbn [setEn l_reg] in E1. rewrite RT in E1. inversion E1; subst w0.
      assert (V3 : inv (regs w3) w3).
      { unfold w3, setLkEnt. rewrite P4.
        destruct (i_reg _ _ V2 l RT) as [e1 [Z1 [Z2 Z3]]].
        assert (VX : inv (updf (regs wE) l true) (setLk wE l (setEn s true (Some e) (w_lk w2 l)))).
        { destruct VE. constructor; cbn; auto.
          - intros e' m L. unfold updf. rewrite i_occ by auto. destruct (Nat.eqb_spec m l) as [->|]; auto.
            unfold regs. rewrite P4, RT. unfold at_ent. cbn. now rewrite R1.
          - intros m. unfold updf. destruct (Nat.eqb_spec m l) as [->|].
            + intros _. exists e. cbn. auto.
            + intros X. auto. }
        eapply inv_ext; [|exact VX]. intros m. unfold updf, regs. cbn. unfold updf. destruct (Nat.eqb_spec m l) as [->|]; auto. }
      split; [|intros FRw; auto]. apply FIN; auto.
      * eapply upto_trans; [exact UE|]. apply upto_setLk.
      * rewrite X3. unfold core, setReg, setEn. cbn. now rewrite RT.
  - set (w1 := setLkEnt w l (l_st (w_lk w l)) false (l_ent (w_lk w l))) in *.
    assert (V1 : inv (regs w1) w1) by (apply inv_regs_setLk; auto).
    assert (U1 : upto l w w1) by apply upto_setLk.
    assert (X1 : w_lk w1 l = setEn (l_st (w_lk w l)) false (l_ent (w_lk w l)) (w_lk w l)) by (cbn; apply updf_same).
    assert (M1 : w_map w1 = w_map w /\ w_next w1 = w_next w) by auto.
    assert (FR1 : FR w -> FR w1) by apply FR_setLk. clearbody w1.
    ob H. inversion H; subst p; clear H. cbn [fst].
    assert (W2 : inv (regs w0) w0 /\ upto l w w0 /\ core (w_lk w0 l) = core (setEn (l_st (w_lk w l)) false None (setReg false (w_lk w l)))).
    { destruct (l_known (w_lk w l)) eqn:KN.
      - destruct (invalidate_spec _ _ _ V1 E0) as (Q1 & Q2 & Q3 & Q4 & Q5 & Q6). rewrite X1 in Q3.
        split; auto. split; auto. eapply upto_trans; eauto.
      - inversion E0; subst. split; auto. split; auto. rewrite X1. unfold core, setEn, setReg. cbn. now rewrite RG, E. }
    assert (FR2 : FR w1 -> FR w0). { destruct (l_known _) in E0; [apply (invalidate_spec _ _ _ V1 E0)|inversion E0; auto]. }
    destruct W2 as (V2 & U2 & X2). split; [|auto]. split; auto. intros m. destruct (Nat.eq_dec m l) as [->|NE]; [|eapply upto_restL; eauto].
    apply core_fields in X2. cbn in X2. destruct X2 as (Y1 & Y2 & Y3 & Y4 & Y5 & Y6 & Y7 & Y8 & Y9 & _).
    unfold restL. rewrite Y2, Y4, Y5, Y6, Y7, Y8, Y9, EV. split; auto. split; [intros X; destruct (K X); auto|].
    split; [split; [discriminate|intros [_ X]; congruence]|]. split; auto. split; auto. discriminate.
Qed.
Lemma rest_pre w l so : INV w -> (0 < l_cnt (w_lk w l))%nat -> (l_const (w_lk w l) = true -> so <> None) -> okOpt so -> pre (setLkEnv w l so) l.
Proof.
  intros [V R] P K OK. destruct (R l) as (A & B & D & E & F & G). specialize (E P).
  unfold pre. cbn -[okOpt]. rewrite updf_same. cbn -[okOpt].
  split; [apply inv_regs_setLk; auto|]. split. { intros m N. eapply upto_restL; eauto. apply upto_setLk. }
  split; auto. split; auto. split; auto.
  destruct (l_env (w_lk w l)) as [s|] eqn:EV.
  - destruct E as [E1 [E2 [e [E3 E4]]]]. rewrite E1. assert (l_reg (w_lk w l) = true) as -> by (apply D; split; auto; discriminate).
    split; auto. rewrite E2. split; eauto.
  - destruct E as [E1 E2]. rewrite E1. split; auto. destruct (l_reg (w_lk w l)); auto. destruct (proj1 D eq_refl). congruence.
Qed.
Lemma rest_pre0 w l : INV w -> (0 < l_cnt (w_lk w l))%nat -> pre w l.
Proof.
  intros [V R] P. destruct (R l) as (A & B & D & E & F & G). specialize (E P).
  unfold pre. split; auto. split; auto. split; auto. split. { intros K. destruct (B K). congruence. } split; auto.
  destruct (l_env (w_lk w l)) as [s|] eqn:EV.
  - destruct E as [E1 [E2 [e [E3 E4]]]]. rewrite E1. assert (l_reg (w_lk w l) = true) as -> by (apply D; split; auto; discriminate).
    split; auto. rewrite E2. split; eauto.
  - destruct E as [E1 E2]. rewrite E1. split; auto. destruct (l_reg (w_lk w l)); auto. destruct (proj1 D eq_refl). congruence.
Qed.
