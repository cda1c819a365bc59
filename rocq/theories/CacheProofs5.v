(** Invariants of the state cache model: runs. *)
From Coq Require Import Permutation.
From Verif Require Import ValueModel RealModel RealProofs CacheModel CacheSpec OrderProps CacheProofs CacheProofs2 CacheFresh CacheProofs3 CacheProofs4.
Open Scope Z_scope.

Lemma INV_grow w w' : INV w -> inv (regs w) w' -> (forall l, core (w_lk w' l) = core (w_lk w l)) -> grows w w' -> INV w'.
Proof.
  intros [V R] V' C G. split.
  - eapply inv_ext; [|exact V']. intros l. unfold regs. symmetry. apply core_reg, C.
  - intros l. eapply restL_move; eauto.
Qed.
Lemma handleChange_INV w l so ans w' : INV w -> (l_const (w_lk w l) = true -> so <> None /\ so = l_env (w_lk w l)) -> okOpt so ->
  handleChange (setLkEnv w l so) l ans = Some w' -> INV w'.
Proof.
  intros V K OK H. unfold handleChange in H.
  destruct (lkActive (w_lk (setLkEnv w l so) l)) eqn:A.
  - assert (P : (0 < l_cnt (w_lk w l))%nat). { unfold lkActive, setLkEnv, setLk in A. cbn [w_lk] in A. rewrite updf_same in A. apply Nat.ltb_lt in A. exact A. }
    ob H. pose proof (proj1 (hci_spec _ _ _ _ (rest_pre w l so V P (fun X => proj1 (K X)) OK) E)) as V1.
    destruct (l_onch _) in H.
    + ob H. inversion H; subst. apply quietT_updI' in E0. assert (INV (fst p0)) by (eapply INV_quiet; eauto).
      destruct (snd p0); auto. eapply INV_quiet; [apply quiet_publish|auto].
    + inversion H; subst. destruct (snd p); auto. eapply INV_quiet; [apply quiet_publish|auto].
  - inversion H; subst; clear H. destruct V as [V R]. apply (INV_of l w); auto.
    + apply upto_setLk.
    + apply inv_regs_setLk; auto.
    + assert (C0 : l_cnt (w_lk w l) = 0%nat). { unfold lkActive, setLkEnv, setLk in A. cbn [w_lk] in A. rewrite updf_same in A. apply Nat.ltb_ge in A. cbn in A. lia. }
      destruct (R l) as (B1 & B2 & D & E & F & G). unfold restL. cbn -[okOpt]. rewrite updf_same. cbn -[okOpt].
      split; auto. split. { intros X. destruct (K X) as [_ ->]. auto. }
      split; [|split; [lia|split; auto]].
      rewrite D, C0. split; lia.
Qed.
Lemma handleChange_INV0 w l ans w' : INV w -> handleChange w l ans = Some w' -> INV w'.
Proof.
  intros V H. unfold handleChange in H. destruct (lkActive (w_lk w l)) eqn:A.
  - assert (P : (0 < l_cnt (w_lk w l))%nat) by (apply Nat.ltb_lt; exact A).
    ob H. pose proof (proj1 (hci_spec _ _ _ _ (rest_pre0 w l V P) E)) as V1.
    destruct (l_onch _) in H.
    + ob H. inversion H; subst. apply quietT_updI' in E0. assert (INV (fst p0)) by (eapply INV_quiet; eauto).
      destruct (snd p0); auto. eapply INV_quiet; [apply quiet_publish|auto].
    + inversion H; subst. destruct (snd p); auto. eapply INV_quiet; [apply quiet_publish|auto].
  - inversion H; subst; auto.
Qed.

Lemma findKey_filter e0 s m : findKey s m <> Some e0 -> NoDup (map snd m) -> 
  findKey s (filter (fun p => negb (Nat.eqb (snd p) e0)) m) = findKey s m.
Proof.
  induction m as [|[k e] m IH]; cbn; auto. intros N ND. inversion ND; subst.
  destruct (Nat.eqb_spec e e0) as [->|NE]; cbn.
  - destruct (same_key k s); [congruence|]. auto.
  - destruct (same_key k s); auto.
Qed.
Lemma in_filter e0 k e (m : list (state * nat)) : In (k, e) (filter (fun p => negb (Nat.eqb (snd p) e0)) m) <-> In (k, e) m /\ e <> e0.
Proof. rewrite filter_In. cbn. rewrite negb_true_iff, Nat.eqb_neq. reflexivity. Qed.
Lemma findKey_filter_none e0 s m : findKey s (filter (fun p => negb (Nat.eqb (snd p) e0)) m) = None ->
  (forall k e, In (k, e) m -> same_key k s = true -> e = e0).
Proof.
  intros F k e I S. destruct (Nat.eq_dec e e0); auto. exfalso.
  assert (I' : In (k, e) (filter (fun p => negb (Nat.eqb (snd p) e0)) m)) by (apply in_filter; auto).
  rewrite (findKey_none _ _ F _ _ I') in S. discriminate.
Qed.
Lemma del_INV w s e : INV w -> okState s -> findKey s (w_map w) = Some e -> e_lk (w_ent w e) = [] ->
  INV (emit (mkW (filter (fun p => negb (Nat.eqb (snd p) e)) (w_map w)) (w_ent w) (w_next w) (w_lk w) (w_cyc w) (w_tr w)) (Del s)).
Proof.
  intros [V R] Hs F EL. pose proof (findKey_live _ _ _ F) as LV.
  destruct (findKey_in _ _ _ F) as [k0 [I0 K0]].
  assert (NR : forall l, l_reg (w_lk w l) = true -> l_ent (w_lk w l) <> Some e).
  { intros l RG EN. pose proof (i_occ _ _ V e l LV) as O. rewrite EL in O. unfold regs in O. rewrite RG in O. cbn in O.
    rewrite (proj2 (at_ent_spec _ _) EN) in O. discriminate. }
  pose proof (inv_find _ _ V) as FD. pose proof (i_nodup _ _ V) as ND.
  set (m := w_map w) in *. set (w' := emit _ _).
  assert (LIVE : forall e', live w' e' = true -> live w e' = true /\ e' <> e).
  { intros e' L. apply live_in in L as [k I]. cbn in I. apply in_filter in I as [I N]. split; auto. apply live_in. exists k. exact I. }
  split.
  - destruct V. constructor; cbn.
    + clear - ND. induction m as [|[k x] m IH]; cbn; auto. cbn in ND. inversion ND; subst. destruct (Nat.eqb x e); cbn; auto.
      constructor; auto. intros I. apply H1. apply in_map_iff in I as [[a b] [<- I]]. apply filter_In in I as [I _]. apply in_map_iff. exists (a, b). auto.
    + intros k e' I. apply in_filter in I as [I _]. eauto.
    + intros k e' I. apply in_filter in I as [I _]. eauto.
    + intros k e' k' e'' I I'. apply in_filter in I as [I _]. apply in_filter in I' as [I' _]. eauto.
    + intros k u I. apply in_app_iff in I as [I|[I|[]]]; eauto. discriminate.
    + intros k I. apply in_app_iff in I as [I|[I|[]]]; eauto. inversion I; subst; auto.
    + intros k e' I. apply in_filter in I as [I N]. rewrite current_del.
      destruct (same_key s k) eqn:SK; [|eauto]. rewrite same_key_sym in SK. pose proof (FD s k e' Hs I SK). congruence.
    + auto.
    + intros s' Hs' F'. rewrite current_del. destruct (same_key s s') eqn:SK; auto.
      apply i_nokey; auto. destruct (findKey s' (w_map w)) as [e'|] eqn:F2; auto. exfalso.
      apply findKey_in in F2 as [k [I K]]. pose proof (findKey_filter_none _ _ _ F' k e' I K). subst e'.
      assert (X : findKey s' (w_map w) = Some e) by (eapply FD; eauto).
      assert (same_key k s = true).
      { assert (EK : k = k0).
        { clear - ND I I0. fold m in I. induction m as [|[a x] m IH]; [destruct I|]. cbn in *. inversion ND; subst.
          destruct I0 as [I0|I0], I as [I|I]; auto; try congruence.
          - inversion I0; subst. exfalso. apply H1. apply in_map_iff. exists (k, e). auto.
          - inversion I; subst. exfalso. apply H1. apply in_map_iff. exists (k0, e). auto. }
        now subst. }
      assert (same_key s s' = true); [|congruence].
      apply (same_key_trans s k s'); eauto. now rewrite same_key_sym.
    + intros e' l L. apply (i_occ e' l). apply LIVE; auto.
    + intros l RG. destruct (i_reg l RG) as [e' [E1 [E2 E3]]]. exists e'. split; auto. split; auto.
      rewrite findKey_filter; auto. fold m in E3. rewrite E3. intros X. inversion X; subst. apply (NR l); auto.
  - intros l. destruct (R l) as (A & B & D & E & G & H). unfold restL. cbn.
    split; auto. split; auto. split; auto. split; [|split; auto].
    + intros P. specialize (E P). destruct (l_env (w_lk w l)) as [s'|] eqn:EV; auto.
      destruct E as [E1 [E2 [e' [E3 E4]]]]. split; auto. split; auto. exists e'. split; auto.
      rewrite findKey_filter; auto. fold m in E4. rewrite E4. intros X. inversion X; subst.
      apply (NR l); auto. apply D. split; auto. discriminate.
    + intros e' EN. destruct (H e' EN) as [H1 H2]. split; auto. intros L. destruct (LIVE e' L) as [L1 L2].
      specialize (H2 L1). fold m in H2. rewrite findKey_filter; auto. rewrite H2. congruence.
Qed.

Theorem step_INV o w w' : INV w -> okOp o -> step o w = Some w' -> INV w'.
Proof.
  intros V OK H. destruct o; cbn [step okOp] in *.
  - eapply opActivate_INV; eauto.
  - eapply opDeactivate_INV; eauto.
  - destruct (l_const (w_lk w l)) eqn:K; [discriminate|]. eapply handleChange_INV; eauto. congruence.
  - destruct (l_tolconst (w_lk w l)); [discriminate|].
    assert (V1 : INV (setLkTol w l v)) by (apply INV_setLk; auto).
    destruct (_ && _).
    + eapply handleChange_INV0; eauto.
    + inversion H; subst; auto.
  - destruct V as [V R]. destruct (ensureE_spec (regs w) w s V OK) as [P1 [P2 [P3 [P4 [P5 [P6 P7]]]]]].
    destruct (entUpdate_spec _ _ _ _ _ _ P1 OK P3 H) as [Q1 [Q2 _]].
    eapply (INV_grow w); eauto. split; auto.
    + intros l. rewrite (s_core _ _ Q2 l). now rewrite P4.
    + eapply grows_trans; [exact P2|]. apply grows_semi; auto.
  - inversion H; subst; clear H. destruct V as [V R]. split.
    + assert (V1 : inv (regs w) (emit w Cyc)) by (apply inv_emit_other; auto; discriminate).
      destruct V1. constructor; auto.
    + intros l. apply R.
  - destruct (findKey s (w_map w)) as [e|] eqn:F; [|inversion H; subst; auto].
    destruct (e_lk (w_ent w e)) eqn:EL; inversion H; subst; auto. eapply del_INV; eauto.
Qed.
Lemma init_INV ps : (forall l, okSpec (ps l)) -> INV (init ps).
Proof.
  intros OK. split.
  - constructor; cbn; auto; try tauto.
    all: try (intros; discriminate). all: try exact (fun _ => I). constructor.
  - intros l. destruct (OK l) as [O1 O2]. unfold restL. cbn -[okOpt]. split; auto. split.
    { intros K. rewrite K. split; auto. destruct (ls_env (ps l)); auto. destruct (O2 K); auto. }
    split; [split; [discriminate|lia]|]. split; [lia|]. split; auto. discriminate.
Qed.
Lemma run_app a b w : run (a ++ b) w = obind (run a w) (run b).
Proof. revert w. induction a; cbn; intros; auto. destruct (step a w); cbn; auto. Qed.
Theorem run_INV ps os w : (forall l, okSpec (ps l)) -> Forall okOp os -> run os (init ps) = Some w -> INV w.
Proof.
  intros OK. revert w. induction os as [|o os IH] using rev_ind; intros w F H.
  - inversion H; subst. apply init_INV; auto.
  - rewrite run_app in H. ob H. cbn in H. ob H. inversion H; subst. apply Forall_app in F as [F1 F2]. inversion F2; subst.
    eapply step_INV; eauto.
Qed.

(** ** The fields given by the operations *)
Lemma core_cnt x y : core x = core y -> l_cnt x = l_cnt y. Proof. intros H; now inversion H. Qed.
Lemma opActivate_stat w m ans w' l : opActivate w m ans = Some w' ->
  stat (w_lk w' l) = stat (if Nat.eqb m l then setCnt (S (l_cnt (w_lk w l))) (w_lk w l) else w_lk w l).
Proof.
  intros H. unfold opActivate in H. set (w1 := setLkCnt w m (S (l_cnt (w_lk w m)))) in *.
  assert (S1 : stat (w_lk w1 l) = stat (if Nat.eqb m l then setCnt (S (l_cnt (w_lk w l))) (w_lk w l) else w_lk w l)).
  { unfold w1. cbn. unfold updf. rewrite Nat.eqb_sym. destruct (Nat.eqb_spec m l) as [->|]; auto. }
  clearbody w1. rewrite <- S1. destruct (Nat.eqb _ 0); [|inversion H; auto].
  ob H. rewrite <- (handleActivate_stat _ _ _ _ l E). destruct (l_onch (w_lk w m)); [|inversion H; auto].
  ob H. ob H. inversion H; subst. apply quietT_updI' in E0.
  assert (S2 : stat (w_lk (fst p) l) = stat (w_lk w0 l)).
  { rewrite (core_stat _ _ (q_core _ _ _ E0 l)). cbn. unfold updf. destruct (Nat.eqb_spec l m) as [->|]; auto. }
  destruct b; auto. rewrite (core_stat _ _ (q_core _ _ _ (quiet_publish (fst p) m) l)). auto.
Qed.
Lemma opDeactivate_stat w m w' l : opDeactivate w m = Some w' ->
  stat (w_lk w' l) = stat (if Nat.eqb m l then setCnt (pred (l_cnt (w_lk w l))) (w_lk w l) else w_lk w l) /\ (0 < l_cnt (w_lk w m))%nat.
Proof.
  intros H. unfold opDeactivate in H. destruct (l_cnt (w_lk w m)) as [|n] eqn:C; [discriminate|]. split; [|lia].
  set (w1 := setLkCnt w m n) in *.
  assert (S1 : stat (w_lk w1 l) = stat (if Nat.eqb m l then setCnt (pred (l_cnt (w_lk w l))) (w_lk w l) else w_lk w l)).
  { unfold w1. cbn. unfold updf. rewrite Nat.eqb_sym. destruct (Nat.eqb_spec m l) as [->|]; auto. rewrite C. auto. }
  clearbody w1. rewrite <- S1. destruct (Nat.eqb n 0); [|inversion H; auto].
  ob H. inversion H; subst; clear H.
  assert (S2 : stat (w_lk w0 l) = stat (w_lk w1 l)).
  { destruct (l_known (w_lk w m)); [eapply unregister_stat; eauto|inversion E; auto]. }
  set (w3 := if l_const _ then _ else _).
  assert (S3 : stat (w_lk w3 l) = stat (w_lk w1 l)).
  { rewrite <- S2. unfold w3. destruct (l_const (w_lk w0 m)); auto. cbn. unfold updf. destruct (Nat.eqb_spec l m) as [->|]; auto. }
  clearbody w3. destruct (l_onch (w_lk w0 m)); auto. rewrite <- S3.
  rewrite (core_stat _ _ (dropThr_core _ _ _)). cbn. unfold updf. destruct (Nat.eqb_spec l m) as [->|]; auto.
Qed.
Lemma handleChange_stat w m ans w' l : handleChange w m ans = Some w' -> stat (w_lk w' l) = stat (w_lk w l).
Proof.
  intros H. unfold handleChange in H. destruct (lkActive _); [|inversion H; auto].
  ob H. rewrite <- (handleChangeInternal_stat _ _ _ _ l E). destruct (l_onch (w_lk w m)).
  - ob H. inversion H; subst. apply quietT_updI' in E0. rewrite <- (core_stat _ _ (q_core _ _ _ E0 l)).
    destruct (snd p0); auto. rewrite (core_stat _ _ (q_core _ _ _ (quiet_publish (fst p0) m) l)). auto.
  - inversion H; subst. destruct (snd p); auto. rewrite (core_stat _ _ (q_core _ _ _ (quiet_publish (fst p) m) l)). auto.
Qed.
Definition statAfter (o : op) (l : nat) (x : lk) : lk :=
  match o with
  | OAct m _ => if Nat.eqb m l then setCnt (S (l_cnt x)) x else x
  | ODeact m => if Nat.eqb m l then setCnt (pred (l_cnt x)) x else x
  | OEnv m s _ => if Nat.eqb m l then mkLk (l_onch x) (l_const x) (l_tolconst x) (l_cnt x) (l_st x) (l_known x) (l_ent x) (l_reg x) (l_thr x) (l_cv x) s (l_tol x) (l_tola x) else x
  | OTol m v => if Nat.eqb m l then mkLk (l_onch x) (l_const x) (l_tolconst x) (l_cnt x) (l_st x) (l_known x) (l_ent x) (l_reg x) (l_thr x) (l_cv x) (l_env x) v (l_tola x) else x
  | _ => x
  end.
Lemma step_stat o w w' l : step o w = Some w' ->
  stat (w_lk w' l) = stat (statAfter o l (w_lk w l)) /\ (match o with ODeact m => m = l -> (0 < l_cnt (w_lk w l))%nat | _ => True end).
Proof.
  intros H. destruct o as [m ans|m|m s ans|m v|s u| |s]; cbn [step statAfter] in *.
  - split; auto. now apply opActivate_stat with ans.
  - destruct (opDeactivate_stat _ _ _ l H). split; auto. intros <-. auto.
  - split; auto. destruct (l_const (w_lk w m)); [discriminate|]. rewrite (handleChange_stat _ _ _ _ l H).
    cbn. unfold updf. rewrite Nat.eqb_sym. destruct (Nat.eqb_spec m l) as [->|]; auto.
  - split; auto. destruct (l_tolconst (w_lk w m)); [discriminate|].
    assert (S1 : stat (w_lk (setLkTol w m v) l) = stat (if Nat.eqb m l then mkLk (l_onch (w_lk w l)) (l_const (w_lk w l)) (l_tolconst (w_lk w l)) (l_cnt (w_lk w l)) (l_st (w_lk w l)) (l_known (w_lk w l)) (l_ent (w_lk w l)) (l_reg (w_lk w l)) (l_thr (w_lk w l)) (l_cv (w_lk w l)) (l_env (w_lk w l)) v (l_tola (w_lk w l)) else w_lk w l)).
    { cbn. unfold updf. rewrite Nat.eqb_sym. destruct (Nat.eqb_spec m l) as [->|]; auto. }
    rewrite <- S1. destruct (_ && _) in H; [|inversion H; auto]. eapply handleChange_stat; eauto.
  - split; auto. rewrite (core_stat _ _ (entUpdate_core _ _ _ _ l H)). cbn. now rewrite ensureE_lk.
  - split; auto. inversion H; auto.
  - split; auto. destruct (findKey s (w_map w)); [|inversion H; auto]. destruct (e_lk _); inversion H; auto.
Qed.
Lemma activeOf_app a b l : activeOf (a ++ b) l = activeOf a l + activeOf b l.
Proof. induction a as [|[] a IH]; cbn [activeOf app]; auto; rewrite IH; lia. Qed.
Theorem run_fields ps os w l : run os (init ps) = Some w ->
  l_onch (w_lk w l) = ls_onch (ps l) /\ l_const (w_lk w l) = ls_const (ps l) /\ l_tolconst (w_lk w l) = ls_tolconst (ps l) /\
  Z.of_nat (l_cnt (w_lk w l)) = activeOf os l /\ l_env (w_lk w l) = stateOf ps os l /\ l_tol (w_lk w l) = tolOf ps os l.
Proof.
  revert w. induction os as [|o os IH] using rev_ind; intros w H.
  - inversion H; subst. cbn. auto 10.
  - rewrite run_app in H. ob H. cbn in H. ob H. inversion H; subst. destruct (IH _ eq_refl) as (A & B & C & D & F & G).
    destruct (step_stat _ _ _ l E0) as [S P]. unfold stateOf, tolOf. rewrite !fold_left_app, activeOf_app. fold (stateOf ps os l) (tolOf ps os l).
    unfold stat in S. inversion S as [[S1 S2 S3 S4 S5 S6]]. rewrite S1, S2, S3, S4, S5, S6.
    destruct o as [m ans|m|m s ans|m v|s u| |s]; cbn [statAfter fold_left activeOf]; rewrite ?Z.add_0_r; auto 10.
    + destruct (Nat.eqb_spec m l); cbn; repeat (split; auto); lia.
    + destruct (Nat.eqb_spec m l) as [->|]; cbn; repeat (split; auto); try lia.
    + destruct (Nat.eqb_spec m l); cbn; auto 10.
    + destruct (Nat.eqb_spec m l); cbn; auto 10.
Qed.
