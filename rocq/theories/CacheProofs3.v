(** Invariants of the state cache model: registration and the operations. *)
From Coq Require Import Permutation.
From Verif Require Import ValueModel RealModel RealProofs CacheModel CacheSpec OrderProps CacheProofs CacheProofs2 CacheFresh.
Open Scope Z_scope.

Lemma inv_ext rg rg' w : (forall l, rg l = rg' l) -> inv rg w -> inv rg' w.
Proof.
  intros E []. constructor; auto.
  - intros e l L. rewrite <- E. auto.
  - intros l R. rewrite <- E in R. auto.
Qed.
Lemma inv_setLk rg w l y : inv rg w ->
  (rg l = false \/ (l_ent y = l_ent (w_lk w l) /\ l_st y = l_st (w_lk w l))) -> inv rg (setLk w l y).
Proof.
  intros [] C. constructor; cbn; auto.
  - intros e m L. unfold updf. destruct (Nat.eqb_spec m l) as [->|]; [|apply i_occ; auto].
    rewrite i_occ by auto. destruct C as [C|[C1 C2]]; [rewrite C; auto|]. unfold at_ent. now rewrite C1.
  - intros m R. unfold updf. destruct (Nat.eqb_spec m l) as [->|]; [|auto].
    destruct C as [C|[C1 C2]]; [congruence|]. rewrite C1, C2. auto.
Qed.
(** Same keys and lookups; registrations may differ. *)
Record same (w w' : world) : Prop := {
  m_map : w_map w' = w_map w; m_next : w_next w' = w_next w; m_cyc : w_cyc w' = w_cyc w;
  m_core : forall l, core (w_lk w' l) = core (w_lk w l) }.
Lemma semi_same w w' : semi w w' -> same w w'. Proof. intros []. constructor; auto. Qed.
Lemma same_refl w : same w w. Proof. constructor; auto. Qed.
Lemma same_trans a b c : same a b -> same b c -> same a c.
Proof. intros [] []. constructor; intros; congruence. Qed.
Lemma inv_setReg rg rg' w e ls t : inv rg w -> live w e = true ->
  (forall m, occ ls m = if rg' m && at_ent (w_lk w m) e then 1%nat else 0%nat) ->
  (forall m, at_ent (w_lk w m) e = false -> rg' m = rg m) ->
  (forall m, rg' m = true -> rg m = true \/ (okState (l_st (w_lk w m)) /\ l_ent (w_lk w m) = Some e /\ findKey (l_st (w_lk w m)) (w_map w) = Some e)) ->
  inv rg' (setEnt w e (mkEnt (e_val (w_ent w e)) ls t)).
Proof.
  intros [] L O D R. constructor; cbn; auto.
  - intros k e' I. unfold updf. destruct (Nat.eqb_spec e' e) as [->|]; auto. apply (i_val k e I).
  - intros e'. unfold updf. destruct (Nat.eqb_spec e' e) as [->|]; auto. apply i_typ.
  - intros e' m L'. unfold updf. destruct (Nat.eqb_spec e' e) as [->|N]; cbn; auto.
    rewrite i_occ by auto. destruct (at_ent (w_lk w m) e') eqn:A; [|now rewrite !andb_false_r].
    rewrite D; auto. unfold at_ent in *. destruct (l_ent (w_lk w m)); auto. apply Nat.eqb_eq in A. subst.
    apply Nat.eqb_neq. auto.
  - intros m Rm. destruct (R m Rm) as [|[R1 [R2 R3]]]; eauto.
Qed.
Lemma answers_spec rg e s us : forall w w', inv rg w -> okState s -> findKey s (w_map w) = Some e ->
  answers w e s us = Some w' -> inv rg w' /\ semi w w' /\ (FR w -> FR w' /\ exists d, w_tr w' = w_tr w ++ d).
Proof.
  induction us as [|u us IH]; cbn; intros w w' V Hs F H.
  - inversion H; subst. split; auto. split; [apply semi_refl|]. intros; split; auto. exists []. now rewrite app_nil_r.
  - ob H. destruct (entUpdate_spec rg w e s u w0 V Hs F E) as [V' [S' _]].
    destruct (IH w0 w' V' Hs) as [V2 [S2 F2]]; auto. { now rewrite (s_map _ _ S'). }
    split; auto. split; [eapply semi_trans; eauto|]. intros FRw.
    destruct (FR_entUpdate rg w e s u w0 V Hs F E FRw) as [F3 [d D]]. destruct (F2 F3) as [F4 [d' D']]. split; auto.
    exists (d ++ d'). now rewrite D', D, app_assoc.
Qed.
Lemma occ_app a b l : occ (a ++ b) l = (occ a l + occ b l)%nat. Proof. apply count_occ_app. Qed.
Lemma at_ent_spec x e : at_ent x e = true <-> l_ent x = Some e.
Proof.
  unfold at_ent. destruct (l_ent x); [|split; discriminate]. rewrite Nat.eqb_eq. split; congruence.
Qed.
Lemma inv_emit_other rg w v : (forall k u, v <> Got k u) -> (forall k, v <> Del k) -> inv rg w -> inv rg (emit w v).
Proof.
  intros NG ND [].
  assert (C : forall s, current s (w_tr w ++ [v]) = current s (w_tr w)).
  { intros s. unfold current. rewrite delivered_app. cbn. destruct v; auto; [destruct (NG s0 u)|destruct (ND s0)]; auto. }
  constructor; cbn; auto.
  - intros k u I. apply in_app_iff in I as [I|[I|[]]]; eauto. destruct (NG k u); auto.
  - intros k I. apply in_app_iff in I as [I|[I|[]]]; eauto. destruct (ND k); auto.
  - intros k e I. rewrite C. auto.
  - intros s Hs F. rewrite C. auto.
Qed.
Lemma gotSince_cong a b tr : okState a -> okState b -> same_key a b = true -> (forall k u, In (Got k u) tr -> okState k) ->
  gotSince a tr = gotSince b tr.
Proof.
  intros Ha Hb K G. induction tr as [|v tr IH] using rev_ind; auto.
  rewrite !gotSince_app. cbn. rewrite IH; [|intros; eapply G; apply in_app_iff; eauto]. destruct v; auto.
  f_equal. apply same_key_cong; auto. eapply G. apply in_app_iff. right. left. reflexivity.
Qed.
Lemma registerE_spec rg w e l ans w' : inv rg w -> rg l = false -> l_ent (w_lk w l) = Some e ->
  okState (l_st (w_lk w l)) -> findKey (l_st (w_lk w l)) (w_map w) = Some e ->
  registerE w e (l_st (w_lk w l)) l ans = Some w' ->
  inv (updf rg l true) w' /\ same w w' /\
  (FR w -> FR w' /\ (gotSince (l_st (w_lk w l)) (w_tr w) = false -> exists d, w_tr w' = w_tr w ++ Ask (l_st (w_lk w l)) :: d)).
Proof.
  intros V R EN Hs F H. pose proof (findKey_live _ _ _ F) as L. unfold registerE, getE in H. rewrite L in H. cbn [obind] in H.
  set (w1 := setEnt w e (mkEnt (e_val (w_ent w e)) (e_lk (w_ent w e) ++ [l]) (e_thr (w_ent w e)))) in *.
  assert (V1 : inv (updf rg l true) w1).
  { apply (inv_setReg rg); auto.
    - intros m. rewrite occ_app, (i_occ _ _ V) by auto. unfold updf, occ. cbn.
      destruct (Nat.eq_dec l m) as [<-|N].
      + rewrite R, Nat.eqb_refl. cbn. rewrite (proj2 (at_ent_spec _ _) EN). auto.
      + rewrite (proj2 (Nat.eqb_neq m l)) by auto. lia.
    - intros m A. unfold updf. destruct (Nat.eqb_spec m l) as [->|]; auto.
      rewrite (proj2 (at_ent_spec _ _) EN) in A. discriminate.
    - intros m. unfold updf. destruct (Nat.eqb_spec m l) as [->|]; auto. }
  assert (SM : same w w1) by (constructor; auto).
  destruct (match e_val (w_ent w e) with None => true | Some c => Nat.ltb (cv_ts c) (w_cyc w) end) eqn:CND.
  - destruct (answers_spec (updf rg l true) e (l_st (w_lk w l)) ans (emit w1 (Ask (l_st (w_lk w l)))) w') as [V2 [S2 F2]]; auto.
    { apply inv_emit_other; auto; intros; discriminate. }
    split; auto. split. { eapply same_trans; [exact SM|]. apply semi_same in S2. destruct S2. constructor; auto. }
    intros FRw. destruct F2 as [F3 [d D]]. { apply FR_emit; [discriminate|]. apply FR_reg; auto. } split; auto.
    intros _. exists d. rewrite D. cbn. now rewrite <- app_assoc.
  - inversion H; subst. split; auto. split; auto. intros FRw. split; [apply FR_reg; auto|]. intros G. exfalso.
    destruct (findKey_in _ _ _ F) as [k [I K]]. rewrite same_key_sym in K.
    destruct (e_val (w_ent w e)) as [c|] eqn:EV; [|discriminate].
    destruct (fr_ts _ FRw k e c I EV) as [T1 T2]. apply Nat.ltb_ge in CND.
    assert (gotSince k (w_tr w) = gotSince (l_st (w_lk w l)) (w_tr w)); [|rewrite T2 in H0; [congruence|lia]].
    apply gotSince_cong; auto. eapply i_keys; eauto. now rewrite same_key_sym. apply V.
Qed.
Lemma occ_removeFirst l ls m : occ (CacheModel.removeFirst l ls) m = (occ ls m - (if Nat.eqb m l then 1 else 0))%nat.
Proof.
  induction ls as [|x ls IH]; cbn. { auto. }
  destruct (Nat.eqb_spec x l) as [->|N].
  - unfold occ. destruct (Nat.eq_dec l m) as [<-|]; [rewrite Nat.eqb_refl; lia|].
    rewrite (proj2 (Nat.eqb_neq m l)) by auto. lia.
  - unfold occ in *. cbn. destruct (Nat.eq_dec x m) as [<-|]; [|auto].
    rewrite IH. rewrite (proj2 (Nat.eqb_neq x l)) by auto. lia.
Qed.
Lemma occ_removelast l ls m : ls <> [] -> last ls l = l -> occ (removelast ls) m = (occ ls m - (if Nat.eqb m l then 1 else 0))%nat.
Proof.
  intros N L. rewrite (app_removelast_last l N) at 2. rewrite L, occ_app. unfold occ. cbn [count_occ].
  destruct (Nat.eq_dec l m) as [<-|]; [rewrite Nat.eqb_refl; lia|]. rewrite (proj2 (Nat.eqb_neq m l)) by auto. lia.
Qed.
Lemma unregisterE_spec rg w e l st w' : inv rg w -> rg l = true -> l_ent (w_lk w l) = Some e ->
  unregisterE w e st l = Some w' -> inv (updf rg l false) w' /\ same w w' /\ (FR w -> FR w').
Proof.
  intros V R EN H. destruct (i_reg _ _ V l R) as [e' [E1 [E2 E3]]]. assert (e' = e) by congruence. subst e'.
  pose proof (findKey_live _ _ _ E3) as L. unfold unregisterE, getE in H. rewrite L in H. cbn [obind] in H.
  assert (O : occ (e_lk (w_ent w e)) l = 1%nat).
  { rewrite (i_occ _ _ V) by auto. rewrite R, (proj2 (at_ent_spec _ _) EN). auto. }
  destruct (e_lk (w_ent w e)) as [|x0 r0] eqn:EL; [discriminate|]. rewrite <- EL in *.
  assert (EX : existsb (Nat.eqb l) (e_lk (w_ent w e)) = true).
  { apply existsb_exists. exists l. split; [|apply Nat.eqb_refl]. apply (count_occ_In Nat.eq_dec). unfold occ in O. lia. }
  rewrite EX in H. cbn [negb] in H.
  set (ls := if Nat.eqb (last (e_lk (w_ent w e)) l) l then removelast (e_lk (w_ent w e)) else CacheModel.removeFirst l (e_lk (w_ent w e))) in *.
  assert (OL : forall m, occ ls m = (occ (e_lk (w_ent w e)) m - (if Nat.eqb m l then 1 else 0))%nat).
  { intros m. unfold ls. destruct (Nat.eqb_spec (last (e_lk (w_ent w e)) l) l).
    - apply occ_removelast; auto. rewrite EL. discriminate.
    - apply occ_removeFirst. }
  clearbody ls.
  assert (V1 : forall t, inv (updf rg l false) (setEnt w e (mkEnt (e_val (w_ent w e)) ls t))).
  { intros t. apply (inv_setReg rg); auto.
    - intros m. rewrite OL, (i_occ _ _ V) by auto. unfold updf. destruct (Nat.eqb_spec m l) as [->|]; cbn.
      + rewrite R, (proj2 (at_ent_spec _ _) EN). auto.
      + lia.
    - intros m A. unfold updf. destruct (Nat.eqb_spec m l) as [->|]; auto. rewrite (proj2 (at_ent_spec _ _) EN) in A. discriminate.
    - intros m. unfold updf. destruct (Nat.eqb_spec m l) as [->|]; auto. }
  destruct ls as [|y r].
  - inversion H; subst. split; [apply V1|]. split; [constructor; auto|]. intros; now apply FR_reg.
  - destruct (e_thr (w_ent w e)).
    + pose proof (quietT_quiet _ _ (quiet_updT _ _ _ _ H)) as Q. split; [eapply inv_quiet; eauto|].
      split. { eapply same_trans; [|apply semi_same, quiet_semi; eauto]. constructor; auto. }
      intros. eapply FR_quiet; [eauto|]. now apply FR_reg.
    + inversion H; subst. split; [apply V1|]. split; [constructor; auto|]. intros; now apply FR_reg.
Qed.

(** ** The state of one lookup between operations *)
Definition restL (w : world) (l : nat) : Prop :=
  let x := w_lk w l in
  okOpt (l_env x) /\
  (l_const x = true -> l_known x = true /\ l_env x = Some (l_st x)) /\
  (l_reg x = true <-> (0 < l_cnt x)%nat /\ l_env x <> None) /\
  ((0 < l_cnt x)%nat ->
     match l_env x with
     | Some s => l_known x = true /\ l_st x = s /\ exists e, l_ent x = Some e /\ findKey s (w_map w) = Some e
     | None => l_known x = false /\ l_ent x = None
     end) /\
  (l_cnt x = 0%nat -> l_const x = false -> l_ent x = None) /\
  (forall e, l_ent x = Some e -> (e < w_next w)%nat /\ (live w e = true -> findKey (l_st x) (w_map w) = Some e)).
Definition regs (w : world) : nat -> bool := fun l => l_reg (w_lk w l).
Definition INV (w : world) : Prop := inv (regs w) w /\ forall l, restL w l.

Lemma core_fields x y : core x = core y ->
  l_onch x = l_onch y /\ l_const x = l_const y /\ l_tolconst x = l_tolconst y /\ l_cnt x = l_cnt y /\ l_st x = l_st y /\
  l_known x = l_known y /\ l_ent x = l_ent y /\ l_reg x = l_reg y /\ l_env x = l_env y /\ l_tol x = l_tol y /\ l_tola x = l_tola y.
Proof. intros H. inversion H. auto 20. Qed.
Lemma restL_move w w' l : core (w_lk w' l) = core (w_lk w l) -> grows w w' -> restL w l -> restL w' l.
Proof.
  intros C [G1 G2 G3] (A & B & D & E & F & H). apply core_fields in C as (C1 & C2 & C3 & C4 & C5 & C6 & C7 & C8 & C9 & _).
  unfold restL. rewrite C2, C4, C5, C6, C7, C8, C9.
  split; auto. split; auto. split; auto. split; [|split; auto].
  - intros P. specialize (E P). destruct (l_env (w_lk w l)); auto. destruct E as [E1 [E2 [e [E3 E4]]]]. eauto 10.
  - intros e En. destruct (H e En) as [H1 H2]. split; [lia|]. intros L. apply G1, H2, G3; auto.
Qed.
Lemma same_grows w w' : same w w' -> grows w w'.
Proof. intros []. constructor. intros; congruence. lia. intros e _. unfold live. now rewrite m_map0. Qed.
Lemma restL_same w w' l : same w w' -> restL w l -> restL w' l.
Proof. intros S. apply restL_move; [apply S|now apply same_grows]. Qed.

(** Lookups other than l keep their state. *)
Record upto (l : nat) (w w' : world) : Prop := {
  u_core : forall m, m <> l -> core (w_lk w' m) = core (w_lk w m);
  u_grows : grows w w';
  u_cyc : w_cyc w' = w_cyc w }.
Lemma upto_refl l w : upto l w w. Proof. constructor; auto. apply grows_refl. Qed.
Lemma upto_trans l a b c : upto l a b -> upto l b c -> upto l a c.
Proof.
  intros [] []. constructor.
  - intros m N. rewrite u_core1, u_core0; auto.
  - eapply grows_trans; eauto.
  - congruence.
Qed.
Lemma upto_same l w w' : same w w' -> upto l w w'.
Proof. intros S. constructor; try apply S. intros; apply S. now apply same_grows. Qed.
Lemma upto_setLk l w y : upto l w (setLk w l y).
Proof.
  constructor; auto.
  - intros m N. cbn. now rewrite updf_other.
  - constructor; auto.
Qed.
Lemma upto_restL l w w' m : upto l w w' -> m <> l -> restL w m -> restL w' m.
Proof. intros [] N. apply restL_move; auto. Qed.
Lemma core_reg x y : core x = core y -> l_reg x = l_reg y. Proof. intros H. now inversion H. Qed.
Lemma inv_regs l b w w' : upto l w w' -> inv (updf (regs w) l b) w' -> l_reg (w_lk w' l) = b -> inv (regs w') w'.
Proof.
  intros U V R. eapply inv_ext; [|exact V]. intros m. unfold updf, regs. destruct (Nat.eqb_spec m l) as [->|N]; auto.
  symmetry. apply core_reg, U, N.
Qed.
Lemma INV_of l w w' : (forall m, restL w m) -> upto l w w' -> inv (regs w') w' -> restL w' l -> INV w'.
Proof.
  intros A U V R. split; auto. intros m. destruct (Nat.eq_dec m l) as [->|N]; auto. eapply upto_restL; eauto.
Qed.
Definition setReg (b : bool) (x : lk) : lk :=
  mkLk (l_onch x) (l_const x) (l_tolconst x) (l_cnt x) (l_st x) (l_known x) (l_ent x) b
       (l_thr x) (l_cv x) (l_env x) (l_tol x) (l_tola x).
Definition setCnt (n : nat) (x : lk) : lk :=
  mkLk (l_onch x) (l_const x) (l_tolconst x) n (l_st x) (l_known x) (l_ent x) (l_reg x)
       (l_thr x) (l_cv x) (l_env x) (l_tol x) (l_tola x).
Definition setEn (st : state) (kn : bool) (en : option nat) (x : lk) : lk :=
  mkLk (l_onch x) (l_const x) (l_tolconst x) (l_cnt x) st kn en (l_reg x)
       (l_thr x) (l_cv x) (l_env x) (l_tol x) (l_tola x).

Lemma ensureReg_spec w l ans w' e : inv (regs w) w -> l_reg (w_lk w l) = false ->
  l_ent (w_lk w l) = Some e -> okState (l_st (w_lk w l)) ->
  (live w e = true -> findKey (l_st (w_lk w l)) (w_map w) = Some e) ->
  ensureRegistered w l ans = Some w' ->
  inv (regs w') w' /\ upto l w w' /\ core (w_lk w' l) = core (setReg true (w_lk w l)) /\ live w e = true /\ w_map w' = w_map w /\ w_next w' = w_next w /\
  (FR w -> FR w' /\ (gotSince (l_st (w_lk w l)) (w_tr w) = false -> exists d, w_tr w' = w_tr w ++ Ask (l_st (w_lk w l)) :: d)).
Proof.
  intros V R EN Hs F H. unfold ensureRegistered in H. rewrite R, EN in H. cbn [obind] in H. ob H. inversion H; subst; clear H.
  assert (L : live w e = true). { unfold registerE, getE in E. destruct (live w e); auto. discriminate. }
  destruct (registerE_spec (regs w) w e l ans w0 V R EN Hs (F L) E) as [V1 [S1 FR1]].
  assert (U : upto l w (setLkReg w0 l true)).
  { eapply upto_trans; [apply upto_same; eauto|apply upto_setLk]. }
  split; [|split; [|split; [|split; [|split; [|split]]]]]; auto.
  - eapply inv_regs with (w := w) (b := true); eauto.
    + apply inv_setLk; auto.
    + cbn. now rewrite updf_same.
  - cbn. rewrite updf_same. pose proof (m_core _ _ S1 l) as C. unfold core. cbn. inversion C. congruence.
  - cbn. apply S1.
  - cbn. apply S1.
  - intros FRw. destruct (FR1 FRw) as [F1 F2]. split; [now apply FR_setLk|]. exact F2.
Qed.
Lemma unreg_spec w l w' : inv (regs w) w -> unregister w l = Some w' ->
  inv (regs w') w' /\ upto l w w' /\ core (w_lk w' l) = core (setReg false (w_lk w l)) /\ w_map w' = w_map w /\ w_next w' = w_next w /\ (FR w -> FR w').
Proof.
  intros V H. unfold unregister in H. destruct (l_reg (w_lk w l)) eqn:R.
  - ob H. ob H. inversion H; subst; clear H.
    destruct (unregisterE_spec (regs w) w n l _ w0 V R E E0) as [V1 [S1 FR1]].
    assert (U : upto l w (setLkReg w0 l false)).
    { eapply upto_trans; [apply upto_same; eauto|apply upto_setLk]. }
    split; [|split; [|split; [|split; [|split]]]]; auto.
    + eapply inv_regs with (w := w) (b := false); eauto.
      * apply inv_setLk; auto.
      * cbn. now rewrite updf_same.
    + cbn. rewrite updf_same. pose proof (m_core _ _ S1 l) as C. unfold core. cbn. inversion C. congruence.
    + cbn. apply S1.
    + cbn. apply S1.
    + intros. apply FR_setLk. auto.
  - inversion H; subst. split; auto. split; [apply upto_refl|]. split; [unfold core, setReg; cbn; congruence|auto].
Qed.
Lemma inv_regs_setLk w l y : inv (regs w) w -> l_reg y = l_reg (w_lk w l) ->
  (l_reg (w_lk w l) = false \/ (l_ent y = l_ent (w_lk w l) /\ l_st y = l_st (w_lk w l))) ->
  inv (regs (setLk w l y)) (setLk w l y).
Proof.
  intros V R C. eapply inv_ext; [|apply inv_setLk; eauto]. intros m. unfold regs. cbn. unfold updf.
  destruct (Nat.eqb_spec m l) as [->|]; auto.
Qed.
Lemma upto_ensureE l w s : inv (regs w) w -> okState s -> upto l w (fst (ensureE w s)).
Proof.
  intros V Hs. destruct (ensureE_spec (regs w) w s V Hs) as [A [B [C [D [E [F G]]]]]]. constructor; auto. intros. now rewrite D.
Qed.

(** handleActivate *)
Lemma handleActivate_spec w l ans w' : INV w -> l_cnt (w_lk w l) = 0%nat ->
  handleActivate (setLkCnt w l 1) l ans = Some w' ->
  inv (regs w') w' /\ upto l w w' /\ restL w' l /\ l_onch (w_lk w' l) = l_onch (w_lk w l) /\
  l_cnt (w_lk w' l) = 1%nat /\ l_env (w_lk w' l) = l_env (w_lk w l) /\
  (FR w -> FR w' /\ (forall s, l_env (w_lk w l) = Some s -> gotSince s (w_tr w) = false -> exists d, w_tr w' = w_tr w ++ Ask s :: d)).
Proof.
  intros [V RR] C0 H. destruct (RR l) as (A & B & D & E & F & G).
  assert (R0 : l_reg (w_lk w l) = false).
  { destruct (l_reg (w_lk w l)) eqn:R; auto. destruct (proj1 D eq_refl). lia. }
  set (wA := setLkCnt w l 1) in *.
  assert (VA : inv (regs wA) wA). { apply inv_regs_setLk; auto. }
  assert (UA : upto l w wA) by apply upto_setLk.
  assert (XA : w_lk wA l = setCnt 1 (w_lk w l)) by (cbn; apply updf_same).
  unfold handleActivate in H.
  set (w1 := if l_const (w_lk wA l) then wA else _) in H.
  assert (FR1 : (FR w -> FR w1) /\ w_tr w1 = w_tr w).
  { unfold w1. destruct (l_const _); [|destruct (l_env _)]; (split; [intros; repeat apply FR_setLk; auto|reflexivity]). }
  assert (W1 : inv (regs w1) w1 /\ upto l w w1 /\ w_map w1 = w_map w /\ w_next w1 = w_next w /\
     l_reg (w_lk w1 l) = false /\ l_env (w_lk w1 l) = l_env (w_lk w l) /\ l_const (w_lk w1 l) = l_const (w_lk w l) /\
     l_cnt (w_lk w1 l) = 1%nat /\ l_ent (w_lk w1 l) = l_ent (w_lk w l) /\ l_onch (w_lk w1 l) = l_onch (w_lk w l) /\
     match l_env (w_lk w l) with
     | Some s => l_known (w_lk w1 l) = true /\ l_st (w_lk w1 l) = s
     | None => l_known (w_lk w1 l) = false /\ l_ent (w_lk w1 l) = None
     end /\
     (forall e, l_ent (w_lk w1 l) = Some e -> (e < w_next w)%nat /\ (live w e = true -> findKey (l_st (w_lk w1 l)) (w_map w) = Some e))).
  { unfold w1. rewrite XA. cbn [setCnt l_const l_env l_st l_ent]. destruct (l_const (w_lk w l)) eqn:K.
    - destruct (B eq_refl) as [B1 B2]. rewrite XA, B2. cbn [setCnt l_reg l_env l_const l_cnt l_ent l_onch l_known l_st].
      split; auto. split; auto. repeat (split; auto).
    - pose proof (F C0 eq_refl) as EN. destruct (l_env (w_lk w l)) as [s|] eqn:EV.
      + assert (X1 : w_lk (setLkEnt wA l s true (l_ent (w_lk w l))) l = setEn s true (l_ent (w_lk w l)) (setCnt 1 (w_lk w l))).
        { unfold setLkEnt. cbn -[updf]. rewrite !updf_same. reflexivity. }
        rewrite X1. cbn [setEn setCnt l_reg l_env l_const l_cnt l_ent l_onch l_known l_st]. rewrite EN, ?EV.
        split. { apply inv_regs_setLk; auto. left. rewrite XA. auto. }
        split. { eapply upto_trans; [exact UA|apply upto_setLk]. }
        repeat (split; auto); discriminate.
      + assert (X1 : w_lk (setLkEnt wA l (l_st (w_lk w l)) false (l_ent (w_lk w l))) l = setEn (l_st (w_lk w l)) false (l_ent (w_lk w l)) (setCnt 1 (w_lk w l))).
        { unfold setLkEnt. cbn -[updf]. rewrite !updf_same. reflexivity. }
        rewrite X1. cbn [setEn setCnt l_reg l_env l_const l_cnt l_ent l_onch l_known l_st]. rewrite EN, ?EV.
        split. { apply inv_regs_setLk; auto. left. rewrite XA. auto. }
        split. { eapply upto_trans; [exact UA|apply upto_setLk]. }
        repeat (split; auto); discriminate. }
  clearbody w1. clear wA VA UA XA.
  destruct W1 as (V1 & U1 & M1 & N1 & R1 & E1 & K1 & C1 & EN1 & O1 & ST1 & G1).
  cbv zeta in H.
  destruct (l_env (w_lk w l)) as [s|] eqn:EV.
  - destruct ST1 as [KN ST]. cbn in A. assert (Hs : okState s) by apply A.
    set (w2 := match l_ent (w_lk w1 l) with Some _ => w1 | None => _ end) in H.
    assert (FR2 : (FR w1 -> FR w2) /\ w_tr w2 = w_tr w1).
    { unfold w2. destruct (l_ent _); auto. destruct (l_known _); auto. split; [intros; apply FR_setLk; eapply FR_ensureE; eauto|].
      change (w_tr (fst (ensureE w1 (l_st (w_lk w1 l)))) = w_tr w1). unfold ensureE. destruct (findKey (l_st (w_lk w1 l)) (w_map w1)); reflexivity. }
    assert (W2 : exists e, inv (regs w2) w2 /\ upto l w w2 /\ l_reg (w_lk w2 l) = false /\ l_env (w_lk w2 l) = Some s /\
       l_const (w_lk w2 l) = l_const (w_lk w l) /\ l_cnt (w_lk w2 l) = 1%nat /\ l_ent (w_lk w2 l) = Some e /\ l_onch (w_lk w2 l) = l_onch (w_lk w l) /\
       l_known (w_lk w2 l) = true /\ l_st (w_lk w2 l) = s /\ (e < w_next w2)%nat /\ (live w2 e = true -> findKey s (w_map w2) = Some e)).
    { unfold w2. destruct (l_ent (w_lk w1 l)) as [e|] eqn:EE.
      - exists e. rewrite N1, M1, (live_map w w1) by auto. destruct (G1 e eq_refl). rewrite <- ST. repeat (split; auto). congruence.
      - rewrite KN, ST. destruct (ensureE_spec (regs w1) w1 s V1 Hs) as [P1 [P2 [P3 [P4 [P5 [P6 P7]]]]]].
        exists (snd (ensureE w1 s)).
        assert (X : w_lk (setLkEnt (fst (ensureE w1 s)) l s true (Some (snd (ensureE w1 s)))) l = setEn s true (Some (snd (ensureE w1 s))) (w_lk w1 l)).
        { cbn. rewrite updf_same, P4. reflexivity. }
        rewrite X. cbn [setEn l_reg l_env l_const l_cnt l_ent l_onch l_known l_st].
        split. { apply inv_regs_setLk; auto. eapply inv_ext; [|exact P1]. intros; unfold regs; now rewrite P4. left. rewrite P4. auto. }
        split. { eapply upto_trans; [exact U1|]. eapply upto_trans; [apply upto_ensureE; eauto|apply upto_setLk]. }
        repeat (split; [congruence|]). split; auto. cbn. apply findKey_in in P3 as [k [I _]]. eapply i_lt; eauto. }
    clearbody w2. destruct W2 as (e & V2 & U2 & R2 & E2 & K2 & C2 & EN2 & O2 & KN2 & ST2 & LT2 & F2).
    rewrite EN2 in H.
    destruct (ensureReg_spec w2 l ans w' e V2 R2 EN2) as (V3 & U3 & X3 & L3 & M3 & N3 & FR3); auto; try (rewrite ST2; auto).
    apply core_fields in X3. cbn in X3. destruct X3 as (Y1 & Y2 & Y3 & Y4 & Y5 & Y6 & Y7 & Y8 & Y9 & _).
    split; auto. split; [eapply upto_trans; eauto|]. split; [|split; [congruence|split; [congruence|split; [congruence|]]]].
    2:{ intros FRw. destruct FR1 as [FR1 T1], FR2 as [FR2 T2]. destruct (FR3 (FR2 (FR1 FRw))) as [F3 F4]. split; auto.
        intros s' X. inversion X; subst s'. rewrite ST2, T2, T1 in F4. auto. }
    unfold restL. rewrite Y2, Y4, Y5, Y6, Y7, Y8, Y9, M3, N3, C2, EN2, KN2, ST2, E2, K2. cbn [okOpt].
    split; auto. split. { intros K. split; auto. }
    split; [split; [split; [lia|discriminate]|auto]|]. split. { intros _. split; auto. split; auto. eauto. }
    split; [lia|]. intros e' EE. inversion EE; subst. auto.
  - destruct ST1 as [KN EN]. rewrite EN, KN in H. rewrite EN in H. inversion H; subst. clear H.
    split; auto. split; auto. split; [|split; auto; split; [congruence|split; [congruence|]]].
    2:{ intros FRw. split; [now apply FR1|discriminate]. }
    unfold restL. rewrite E1, C1, EN, KN, R1. cbn.
    split; auto. split. { intros K. rewrite K1 in K. destruct (B K). congruence. }
    split; [split; [discriminate|intros [_ X]; congruence]|]. split; auto. split; auto. discriminate.
Qed.
