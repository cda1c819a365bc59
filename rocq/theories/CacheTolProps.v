(** C27: change lookups with a tolerance. *)
From Coq Require Import String.
From Verif Require Import ValueModel RealModel RealProofs RealErr CacheModel CacheSpec OrderProps CacheProofs CacheProofs2 CacheFresh CacheProofs3 CacheProofs4 CacheProofs5 CacheProofs6 CacheProofs7 CacheProps CacheTol CacheTol2 CacheTol3 CacheTol4.
Open Scope Z_scope.
Local Opaque current gotSince.

(** A legal history in which no tolerance is a NaN. *)
Record tolHistory (ps : nat -> lkspec) (os : list op) (w : world) : Prop := {
  th_hist : history ps os w;
  th_specs : forall l, okTol (ls_tol (ps l));
  th_ops : Forall okTolOp os }.
Definition int32 (z : Z) : Prop := - 2 ^ 31 <= z < 2 ^ 31.

Lemma run_GA ps os w l : (forall k, okSpec (ps k)) -> Forall okOp os -> (forall k, okTol (ls_tol (ps k))) -> Forall okTolOp os -> ls_onch (ps l) = true ->
  run os (init ps) = Some w -> GA l w /\ TA l w.
Proof.
  intros SP OK SPT OKT O. revert w. induction os as [|o os IH] using rev_ind; intros w H.
  - inversion H; subst. split; [|intros _ A; discriminate A]. apply GA_in; auto. cbn. auto.
  - rewrite run_app in H. ob H. cbn in H. ob H. inversion H; subst. apply Forall_app in OK as [OK1 OK2]. apply Forall_app in OKT as [OT1 OT2].
    inversion OK2; inversion OT2; subst. destruct (IH OK1 OT1 _ eq_refl) as [I1 I2].
    assert (HH : history ps os w0) by (constructor; auto).
    destruct (step_T o w0 w l (h_INV _ _ _ HH)) as [S1 _]; auto. { rewrite (h_onch _ _ _ HH). auto. }
    split; auto. eapply step_TA; eauto.
Qed.
Section Facts.
Variables (ps : nat -> lkspec) (os : list op) (w : world) (l : nat).
Hypothesis H : tolHistory ps os w.
Hypothesis O : ls_onch (ps l) = true.
Lemma t_GA : GA l w. Proof. destruct H as [[A B C] D E]. eapply run_GA; eauto. Qed.
Lemma t_TA : TA l w. Proof. destruct H as [[A B C] D E]. eapply run_GA; eauto. Qed.
Lemma t_onch : l_onch (w_lk w l) = true. Proof. destruct H as [A _ _]. now rewrite (h_onch _ _ _ A). Qed.
Lemma t_tol : 0 < activeOf os l -> lkTol (w_lk w l) = tolOf ps os l.
Proof.
  intros A. destruct H as [HH _ _]. unfold lkTol. rewrite (t_TA t_onch (h_act _ _ _ HH l A)), orb_true_r.
  destruct HH as [_ _ R]. destruct (run_fields _ _ _ l R). tauto.
Qed.
Lemma t_G : 0 < activeOf os l -> G true l w.
Proof. intros A. destruct t_GA as [X _]. destruct H as [HH _ _]. now rewrite (h_act _ _ _ HH l A) in X. Qed.
(** What is read. *)
Lemma t_read r : 0 < activeOf os l -> lkRead w l = Some r -> r = rdo w l \/ (vknown r = false /\ vknown (rdo w l) = false).
Proof.
  intros A R. destruct (t_G A) as [HP _]. destruct H as [HH _ _]. unfold lkRead in R. rewrite (h_act _ _ _ HH l A), t_onch in R.
  unfold rdo, rd. destruct (l_ent (w_lk w l)) as [e|] eqn:EN.
  - ob R. unfold getE in E. destruct (live w e); [|discriminate]. inversion E; subst. unfold entV.
    destruct HP as [_ HP]. destruct (e_val (w_ent w e)) as [c|] eqn:EV.
    + destruct (l_cv (w_lk w l)); [inversion R; auto|]. destruct (vknown (cv_v c)) eqn:K; inversion R; auto.
    + inversion R; subst. right. split; auto. destruct (l_thr (w_lk w l)).
      * destruct HP as (c & e' & ec & X1 & X2 & X3 & _). congruence.
      * rewrite HP. auto.
  - inversion R; subst. left. destruct HP as [_ HP]. destruct (l_thr (w_lk w l)).
    + destruct HP as (c & e' & ec & X1 & X2 & X3 & _). congruence.
    + now rewrite HP.
Qed.
Lemma t_rd s : 0 < activeOf os l -> stateOf ps os l = Some s -> vsim (rd w l) (current s (w_tr w)).
Proof.
  intros A E. destruct H as [HH _ _]. destruct (h_state _ _ _ HH l s A E) as [e [E1 [E2 _]]]. unfold rd. rewrite E1.
  eapply inv_current; eauto. apply (h_INV _ _ _ HH). apply (h_okst _ _ _ HH l s E).
Qed.
(** Reading and state value: equal, or held back by the thresholds. *)
Lemma t_held : 0 < activeOf os l -> rdo w l = rd w l \/
  exists t c, l_thr (w_lk w l) = Some t /\ l_cv (w_lk w l) = Some c /\ rdo w l = cv_v c /\ thrOK t (cv_v c) /\ vtype (cv_v c) = vtype (rd w l) /\ vknown (tolOf ps os l) = true /\
    (thrWk t = true -> tolChanged t (tolOf ps os l) = Some false) /\ thrExceeded t (rd w l) = Some false.
Proof.
  intros A. destruct (t_G A) as ([_ HP] & _ & HG). rewrite (t_tol A) in HG. unfold rdo. destruct (l_thr (w_lk w l)) as [t|] eqn:TH.
  - destruct HP as (c & e & ec & X1 & X2 & X3 & X4 & X5). destruct (HG t c e ec eq_refl X1 X2 X3) as (Y1 & Y2 & Y3).
    assert (R : rd w l = cv_v ec). { unfold rd. rewrite X2. unfold entV. now rewrite X3. }
    rewrite X1, R. destruct Y3 as [Y3|Y3]; [left; auto|right]. exists t, c. unfold cvType in X4. auto 10.
  - left. now rewrite HP.
Qed.
End Facts.


(** ** One update of the lookup's state. *)
Lemma entUpdate_cases w e u w' : entUpdate w e u = Some w' -> w' = w \/
  exists c (n : bool), (if n then notifyAll (e_lk (w_ent w e)) (setVal w e c) else Some (setVal w e c)) = Some w' /\
    (forall c0, e_val (w_ent w e) = Some c0 -> cvType c0 <> UNKNOWN_TYPE -> cvType c = cvType c0 /\ (n = false -> cv_v c = cv_v c0)).
Proof.
  intros H. unfold entUpdate, getE in H. destruct (live w e) eqn:LV; [|discriminate]. cbn [obind] in H.
  destruct u as [v|].
  - ob H. destruct o as [c|]; [|inversion H; auto]. ob H. cbv zeta in H. right. exists (fst p), (snd p). split; auto.
    intros c0 X Y. rewrite X in E. pose proof (typed_ensure _ _ _ E Y). subst c. apply (typed_update _ _ _ _ E0 Y).
  - destruct (e_val (w_ent w e)) eqn:EV; [|inversion H; auto]. cbv zeta in H. right. exists (fst (cvSetUnknown c (w_cyc w))), (snd (cvSetUnknown c (w_cyc w))). split; auto.
    intros c0 X Y. inversion X; subst c0. unfold cvSetUnknown. rewrite (proj2 (Z.eqb_neq _ _) Y). cbn. split; auto.
    unfold cvType. destruct (cv_v c); cbn; congruence.
Qed.
Lemma thrOK_typed t v : thrOK t v -> vtype v <> UNKNOWN_TYPE.
Proof. destruct t; cbn; intros [-> _]; discriminate. Qed.
Lemma upd_exact l w w' s u e t0 c : listedO l w -> G true l w -> findKey s (w_map w) = Some e -> l_ent (w_lk w l) = Some e ->
  occ (e_lk (w_ent w e)) l = 1%nat -> l_thr (w_lk w l) = Some t0 -> l_cv (w_lk w l) = Some c -> vknown (cv_v c) = true ->
  step (OUpd s u) w = Some w' ->
  exists d, w_tr w' = w_tr w ++ d /\ vtype (rd w' l) = vtype (cv_v c) /\
    ((rd w' l = cv_v c /\ pubs l d = 0%nat /\ rdo w' l = cv_v c) \/
     exists ex : bool, thrExceeded t0 (rd w' l) = Some ex /\ pubs l d = (if ex then 1 else 0)%nat /\ rdo w' l = if ex then rd w' l else cv_v c).
Proof.
  intros (O & A & _) ([OT HP] & HX & HG) F EN OC TH CV KN S. cbn [step] in S. unfold ensureE in S. rewrite F in S. cbn [fst snd] in S.
  rewrite TH in HP. destruct HP as (c' & e' & ec & X1 & X2 & X3 & X4 & X5). assert (c' = c) by congruence. assert (e' = e) by congruence. subst c' e'.
  destruct (HG t0 c e ec TH CV EN X3) as (Y1 & Y2 & Y3). rewrite (thrWk_known _ _ X5), KN in Y2. specialize (Y2 eq_refl).
  set (w1 := emit w (Got s u)) in *.
  assert (RW : forall v, e_val (w_ent v e) = Some ec -> w_lk v l = w_lk w l -> rd v l = cv_v ec /\ rdo v l = cv_v c).
  { intros v E1 E2. unfold rdo, rd. rewrite E2, EN, CV. unfold entV. now rewrite E1. }
  assert (PG : pubs l [Got s u] = 0%nat) by reflexivity.
  destruct (entUpdate_cases _ _ _ _ S) as [->|(c1 & n & N & TY)].
  - exists [Got s u]. split; auto. destruct (RW w1) as [R1 R2]; auto. split; [rewrite R1; auto|]. rewrite R1, R2, PG. destruct Y3 as [Y3|Y3]; [left|right; exists false]; auto.
  - destruct (TY ec X3) as [TY1 TY2]. { rewrite <- X4. unfold cvType. eapply thrOK_typed; eauto. }
    destruct n.
    + pose proof (quiet_notify _ _ _ N) as Q.
      destruct (notify_one l (e_lk (w_ent w1 e)) (setVal w1 e c1) w') as (wa & p & Z1 & Z2 & Z3 & Z4 & d & D & Z5); auto.
      assert (PA : P l wa).
      { apply (P_ext l (setVal w1 e c1)); auto. apply P_setVal.
        - split; auto. cbn. rewrite TH. exists c, e, ec. auto.
        - intros c0 W1 W2. apply TY; auto. }
      assert (LA : w_lk wa l = w_lk w l) by (rewrite Z1; reflexivity).
      destruct (UI true l wa true p PA Z3) as (_ & _ & _ & U). rewrite LA in U.
      destruct (U t0 c TH CV Y1) as (t1 & ex & U1 & U2 & U3 & U4 & U5 & U6). specialize (U3 Y2). subst t1.
      assert (RD : rd w' l = rd wa l).
      { unfold rd. rewrite (core_ent _ _ (q_core _ _ _ Q l)), LA. cbn. rewrite EN. unfold entV. rewrite (q_val _ _ _ Q e), Z2. reflexivity. }
      assert (RO : rdo w' l = rdo (fst p) l).
      { apply rdo_ext; auto. intros e' _. rewrite (q_val _ _ _ Q e'), <- Z2. symmetry. apply (q_val _ _ _ (quietT_updI' _ _ _ _ Z3)). }
      exists (Got s u :: d). split. { rewrite D. cbn. now rewrite <- app_assoc. }
      split. { rewrite RD. unfold rd. rewrite LA, EN. unfold entV. rewrite Z2. cbn. rewrite updf_same. cbn. unfold cvType in *. congruence. }
      right. exists ex. rewrite RD, RO. split; auto. split; auto.
      change (Got s u :: d) with ([Got s u] ++ d). rewrite pubs_app, PG, Z5, U5. reflexivity.
    + inversion N; subst w'; clear N. exists [Got s u]. split; auto.
      assert (R1 : rd (setVal w1 e c1) l = cv_v ec). { unfold rd. cbn. rewrite EN, updf_same. unfold entV. cbn. auto. }
      assert (R2 : rdo (setVal w1 e c1) l = cv_v c). { unfold rdo. cbn. now rewrite CV. }
      rewrite R1, R2, PG. split; [unfold cvType in *; congruence|]. destruct Y3 as [Y3|Y3]; [left|right; exists false]; auto.
Qed.

(** ** Thresholds against the plain inequality *)
Lemma wrap32_id z : int32 z -> wrap32 z = z.
Proof.
  unfold int32, wrap32, toInt32. intros B. destruct (Z_lt_dec z 0).
  - replace (z mod 2 ^ 32) with (z + 2 ^ 32). 2:{ apply Z.mod_unique with (-1); lia. }
    destruct (Z.ltb_spec (z + 2 ^ 32) (2 ^ 31)); lia.
  - rewrite Z.mod_small by lia. destruct (Z.ltb_spec z (2 ^ 31)); lia.
Qed.
Lemma tolI_abs tv z : tolI tv = Some z -> exists y, tv = VInt y /\ (int32 y -> y <> - 2 ^ 31 -> z = Z.abs y).
Proof.
  destruct tv; try discriminate. cbn [tolI]. intros H. eexists. split; [reflexivity|]. unfold int32. intros B N.
  destruct (Z.ltb_spec n 0); inversion H; [|lia]. rewrite wrap32_id by (unfold int32; lia). lia.
Qed.
(** Integer: exceeded exactly when the distance reaches the tolerance. *)
Lemma excI lo hi tol wk a b z ex : thrOK (TI lo hi tol wk) (VInt a) -> tolChanged (TI lo hi tol wk) (VInt z) = Some false ->
  int32 z -> int32 (a - Z.abs z) -> int32 (a + Z.abs z) -> thrExceeded (TI lo hi tol wk) (VInt b) = Some ex -> ex = (Z.abs z <=? Z.abs (b - a)).
Proof.
  intros (_ & _ & T) C B1 B2 B3 E. destruct (T a eq_refl) as [-> ->]. cbn [tolChanged] in C. destruct (tolI (VInt z)) as [q|] eqn:Q; [|discriminate].
  cbn in C. inversion C as [C1]. apply negb_false_iff, Z.eqb_eq in C1. subst q. destruct (tolI_abs _ _ Q) as [y [Y1 Y2]]. inversion Y1; subst y.
  assert (tol = Z.abs z) as -> by (apply Y2; auto; unfold int32 in *; lia).
  rewrite !wrap32_id in E by auto. cbn [thrExceeded] in E.
  assert (ex = ((a + Z.abs z <=? b) || (b <=? a - Z.abs z))) as -> by congruence.
  destruct (Z.leb_spec (a + Z.abs z) b), (Z.leb_spec b (a - Z.abs z)), (Z.leb_spec (Z.abs z) (Z.abs (b - a))); auto; lia.
Qed.

(** Real thresholds. *)
Lemma tolR_key tv r : okTol tv -> tolR tv = Some r -> exists T, realOf tv = Some (Some T) /\
  r = Some (match T with Fin t => Fin (Z.abs t) | _ => PInf end).
Proof.
  unfold tolR. intros OT H. destruct (realOf tv) as [q|] eqn:Q; [|discriminate]. cbn in H.
  assert (exists T, q = Some T) as [T ->].
  { destruct tv; try discriminate; cbn -[rkey ikey] in Q; inversion Q; [eauto|]. destruct (rkey _) eqn:K; eauto. exfalso. cbn in OT. congruence. }
  exists T. split; auto. inversion H as [H1]. destruct T as [|t|]; cbn; auto. destruct (Z.ltb_spec t 0); cbn; do 2 f_equal; lia.
Qed.
Lemma tolC_R lo hi tol wk tv : okTol tv -> tolChanged (TR lo hi tol wk) tv = Some false ->
  exists T, realOf tv = Some (Some T) /\ tol = Some (match T with Fin t => Fin (Z.abs t) | _ => PInf end).
Proof.
  intros OT C. cbn [tolChanged] in C. destruct (tolR tv) as [r|] eqn:R; [|discriminate]. destruct (tolR_key tv r OT R) as [T [T1 T2]].
  exists T. split; auto. cbn in C. inversion C as [C1]. apply negb_false_iff in C1. rewrite <- T2. rewrite T2 in *.
  unfold oext_eq in C1. destruct tol as [z|]; [|discriminate]. apply ext_eq_iff in C1. congruence.
Qed.
(** Not exceeded: the distance is below the tolerance. *)
Lemma excR_in lo hi tol wk a b x c tv : okTol tv -> thrOK (TR lo hi tol wk) (VReal a) -> rkey a = Some (Fin x) -> tolChanged (TR lo hi tol wk) tv = Some false ->
  rkey b = Some c -> thrExceeded (TR lo hi tol wk) (VReal b) = Some false ->
  exists y T, c = Fin y /\ realOf tv = Some (Some T) /\ forall t, T = Fin t -> Z.abs (y - x) < Z.abs t.
Proof.
  intros OT (_ & W & TH) KA C KB E. destruct (TH a eq_refl) as [-> ->]. cbn in W. subst wk. rewrite KA in *.
  destruct (tolC_R _ _ _ _ _ OT C) as [T [T1 ->]]. cbn [thrExceeded realOf option_map negb] in E. rewrite KB in E.
  destruct (rge _ _ || rle _ _) eqn:GE; [discriminate|]. apply orb_false_iff in GE as [GE LE]. clear E.
  unfold rge, rle in *. apply orb_false_iff in GE as [G1 G2]. apply orb_false_iff in LE as [L1 L2].
  destruct T as [|t|].
  - cbn in *. destruct c as [|y|]; cbn in *; try discriminate. exists y, NInf. split; auto. split; auto. discriminate.
  - cbn [radd rsub rneg oext_lt oext_eq] in *. 
    assert (HI : forall y, repr y -> x + Z.abs t <= y -> c = Fin y -> False).
    { intros y R B ->. pose proof (rnd_mono (x + Z.abs t) y 0 B ltac:(lia)) as M. rewrite (rnd_repr y R) in M.
      destruct (rnd (x + Z.abs t) 0); cbn in *; try tauto; try discriminate. apply Z.ltb_ge in G1. apply Z.eqb_neq in G2. lia. }
    assert (LO : forall y, repr y -> y <= x + - Z.abs t -> c = Fin y -> False).
    { intros y R B ->. pose proof (rnd_mono y (x + - Z.abs t) 0 B ltac:(lia)) as M. rewrite (rnd_repr y R) in M.
      destruct (rnd (x + - Z.abs t) 0); cbn in *; try tauto; try discriminate. apply Z.ltb_ge in L1. apply Z.eqb_neq in L2. lia. }
    destruct c as [|y|].
    + destruct (rnd (x + - Z.abs t) 0); cbn in L1, L2; discriminate.
    + exists y, (Fin t). split; auto. split; auto. intros t' E. inversion E; subst t'. pose proof (rkey_repr _ _ KB) as R.
      destruct (Z_lt_dec (Z.abs (y - x)) (Z.abs t)) as [|N]; auto. exfalso.
      destruct (Z_le_dec (x + Z.abs t) y); [eapply HI; eauto|]. eapply LO; eauto. lia.
    + destruct (rnd (x + Z.abs t) 0); cbn in G1, G2; discriminate.
  - cbn in *. destruct c as [|y|]; cbn in *; try discriminate. exists y, PInf. split; auto. split; auto. discriminate.
Qed.
(** Well below the tolerance: not exceeded. *)
Lemma excR_out lo hi tol wk a b x y t tv ex : okTol tv -> thrOK (TR lo hi tol wk) (VReal a) -> rkey a = Some (Fin x) -> tolChanged (TR lo hi tol wk) tv = Some false ->
  rkey b = Some (Fin y) -> realOf tv = Some (Some (Fin t)) -> 0 < Z.abs t - Z.abs (y - x) -> Z.abs x + Z.abs y + Z.abs t <= 2 ^ 42 * (Z.abs t - Z.abs (y - x)) ->
  thrExceeded (TR lo hi tol wk) (VReal b) = Some ex -> ex = false.
Proof.
  intros OT (_ & W & TH) KA C KB RT D B E. destruct (TH a eq_refl) as [-> ->]. cbn in W. subst wk. rewrite KA in *.
  destruct (tolC_R _ _ _ _ _ OT C) as [T [T1 ->]]. assert (T = Fin t) by congruence. subst T.
  cbn [thrExceeded realOf option_map negb] in E. rewrite KB in E.
  destruct (within_quiet x y (Z.abs t) (rkey_repr _ _ KB) ltac:(lia) D B) as (Q1 & Q2 & Q3 & Q4). cbv zeta in Q1, Q2, Q3, Q4.
  rewrite Q1, Q2, Q3, Q4 in E. cbn in E. congruence.
Qed.
(** ** Values equal up to what a reader can tell. *)
Lemma vsim_int z v : vsim (VInt z) v -> v = VInt z.
Proof.
  intros [<-|[T E]]; auto. destruct v; try discriminate T.
  - rewrite C19_symmetric in E. apply C19_unknown in E as [u [X _]]. discriminate X.
  - rewrite veq_veqK in E. cbn in E. apply Z.eqb_eq in E. now subst.
Qed.
Lemma vsim_real r v : vsim (VReal r) v -> exists r', v = VReal r' /\ rkey r' = rkey r.
Proof.
  intros [<-|[T E]]; eauto. destruct v; try discriminate T.
  - rewrite C19_symmetric in E. apply C19_unknown in E as [u [X _]]. discriminate X.
  - rewrite veq_veqK in E. cbn in E. unfold req, oext_eq in E. eexists. split; [reflexivity|].
    destruct (rkey r), (rkey r0); try discriminate. apply ext_eq_iff in E. congruence.
Qed.
Lemma vsim_known a b : vsim a b -> vknown a = vknown b.
Proof. intros S. apply eqv_known. now right. Qed.
Lemma vsim_type a b : vsim a b -> vtype a = vtype b.
Proof. intros [->|[T _]]; auto. Qed.
Lemma vsim_unk t v : vsim (VUnk t) v -> v = VUnk t.
Proof.
  intros S. pose proof (vsim_known _ _ S) as K. pose proof (vsim_type _ _ S) as T. destruct v; try discriminate K. cbn in T. now subst.
Qed.
Lemma vsim_sym a b : vsim a b -> vsim b a.
Proof. intros [->|[T E]]; [left; auto|right]. split; auto. now rewrite C19_symmetric. Qed.

(** An Integer reading differs from the state's current value by less than the tolerance.
    (Unless the thresholds overflow 32 bits; see C27_overflow_refuted.) *)
Theorem C27_integer_within ps os w l s a : tolHistory ps os w -> ls_onch (ps l) = true -> 0 < activeOf os l -> stateOf ps os l = Some s ->
  lkRead w l = Some (VInt a) ->
  exists b, current s (w_tr w) = VInt b /\
    (b = a \/ exists z, tolOf ps os l = VInt z /\ (int32 z -> int32 (a - Z.abs z) -> int32 (a + Z.abs z) -> Z.abs (b - a) < Z.abs z)).
Proof.
  intros H O A E R. pose proof (t_rd _ _ _ _ H s A E) as V.
  destruct (t_read _ _ _ _ H O _ A R) as [R1|[X _]]; [|discriminate X].
  destruct (t_held _ _ _ _ H O A) as [EQ|(t & c & T1 & T2 & T3 & T4 & T5 & T6 & T7 & T8)].
  - rewrite EQ in R1. rewrite <- R1 in V. apply vsim_int in V. exists a. auto.
  - rewrite T3 in R1. rewrite <- R1 in *. destruct t as [lo hi tol wk|lo hi tol wk]; [|destruct T4 as [T4 _]; discriminate T4].
    assert (wk = true) by (destruct T4 as (_ & T4 & _); auto). subst wk. specialize (T7 eq_refl).
    destruct (rd w l) as [ty| |b| | | | | | | | | |] eqn:RD; try discriminate T5; [cbn in T8; discriminate|].
    apply vsim_int in V. exists b. split; auto. right. cbn [tolChanged] in T7. destruct (tolI (tolOf ps os l)) as [q|] eqn:Q; [|discriminate].
    destruct (tolI_abs _ _ Q) as [z [Z1 _]]. exists z. split; auto. intros B1 B2 B3.
    assert (X : false = (Z.abs z <=? Z.abs (b - a))). { eapply excI; eauto. cbn [tolChanged]. rewrite <- Z1, Q. exact T7. }
    symmetry in X. apply Z.leb_gt in X. exact X.
Qed.
(** A Real reading differs from the current value by less than the tolerance (exactly, despite
    rounding); numbers in units of 2^-1074, so finite doubles are integers. *)
Theorem C27_real_within ps os w l s a x : tolHistory ps os w -> ls_onch (ps l) = true -> 0 < activeOf os l -> stateOf ps os l = Some s ->
  lkRead w l = Some (VReal a) -> rkey a = Some (Fin x) ->
  exists b, current s (w_tr w) = VReal b /\
    (rkey b = rkey a \/ rkey b = None \/
     exists y T, rkey b = Some (Fin y) /\ realOf (tolOf ps os l) = Some (Some T) /\ forall t, T = Fin t -> Z.abs (y - x) < Z.abs t).
Proof.
  intros H O A E R KX. pose proof (t_rd _ _ _ _ H s A E) as V.
  destruct (t_read _ _ _ _ H O _ A R) as [R1|[X _]]; [|discriminate X].
  destruct (t_held _ _ _ _ H O A) as [EQ|(t & c & T1 & T2 & T3 & T4 & T5 & T6 & T7 & T8)].
  - rewrite EQ in R1. rewrite <- R1 in V. apply vsim_real in V as [b [V1 V2]]. exists b. auto.
  - rewrite T3 in R1. rewrite <- R1 in *. destruct t as [lo hi tol wk|lo hi tol wk]; [destruct T4 as [T4 _]; discriminate T4|].
    assert (wk = true) by (destruct T4 as (_ & T4 & _); auto). subst wk. specialize (T7 eq_refl).
    destruct (rd w l) as [ty| | |b0| | | | | | | | |] eqn:RD; try discriminate T5; [cbn in T8; discriminate|].
    apply vsim_real in V as [b [V1 V2]]. exists b. split; auto. rewrite V2. destruct (rkey b0) as [k|] eqn:KB; auto. right. right.
    assert (OT : okTol (tolOf ps os l)).
    { destruct (t_G _ _ _ _ H O A) as [[OT _] _]. destruct H as [HH _ _]. destruct HH as [_ _ RR]. destruct (run_fields _ _ _ l RR) as (_ & _ & _ & _ & _ & X). now rewrite <- X. }
    destruct (excR_in _ _ _ _ _ _ _ _ _ OT T4 KX T7 KB T8) as (y & T & -> & Y1 & Y2). exists y, T. auto.
Qed.
(** Known-ness: a known reading means that the current value is known; for Real states the
    converse holds too (for Integer states see C27_unknown_sticks_refuted). *)
Theorem C27_known ps os w l s r : tolHistory ps os w -> ls_onch (ps l) = true -> 0 < activeOf os l -> stateOf ps os l = Some s ->
  lkRead w l = Some r ->
  (vknown r = true -> vknown (current s (w_tr w)) = true) /\
  (vtype (current s (w_tr w)) = REAL_TYPE -> vknown r = vknown (current s (w_tr w))).
Proof.
  intros H O A E R. pose proof (t_rd _ _ _ _ H s A E) as V. rewrite <- (vsim_known _ _ V), <- (vsim_type _ _ V).
  assert (RR : vknown r = vknown (rdo w l)). { destruct (t_read _ _ _ _ H O _ A R) as [->|[-> ->]]; auto. }
  rewrite RR. destruct (t_held _ _ _ _ H O A) as [->|(t & c & T1 & T2 & -> & T4 & T5 & T6 & T7 & T8)]; auto.
  destruct t as [lo hi tol wk|lo hi tol wk]; destruct T4 as (T4 & W & _); rewrite T4 in T5; rewrite W.
  - split; [|intros X; rewrite X in T5; discriminate]. intros ->. destruct (rd w l) eqn:RD; auto. cbn in T8. discriminate.
  - assert (X : wk = vknown (rd w l)).
    { destruct (rd w l) eqn:RD; try discriminate T5; cbn -[rkey ikey] in T8; destruct wk; try discriminate; auto. }
    rewrite X. auto.
Qed.
(** While the tolerance is unknown the reading is the current value. *)
Theorem C27_unknown_tolerance ps os w l s r : tolHistory ps os w -> ls_onch (ps l) = true -> 0 < activeOf os l -> stateOf ps os l = Some s ->
  vknown (tolOf ps os l) = false -> lkRead w l = Some r ->
  vsim r (current s (w_tr w)) \/ (vknown r = false /\ vknown (current s (w_tr w)) = false).
Proof.
  intros H O A E T R. pose proof (t_rd _ _ _ _ H s A E) as V.
  destruct (t_held _ _ _ _ H O A) as [EQ|(t & c & _ & _ & _ & _ & _ & T6 & _)]; [|congruence].
  destruct (t_read _ _ _ _ H O _ A R) as [->|[X1 X2]]; [left; now rewrite EQ|right]. split; auto. rewrite EQ in X2. now rewrite <- (vsim_known _ _ V).
Qed.
(** No silent change: an operation that changes the reading of a change lookup active before
    and after notifies its listeners, unless the tolerance became unknown
    (C27_tolerance_lost_refuted). *)
Theorem C27_no_silent_change ps os o w w' l v v' : tolHistory ps os w -> okOp o -> okTolOp o -> step o w = Some w' ->
  ls_onch (ps l) = true -> 0 < activeOf os l -> 0 < activeOf (os ++ [o]) l ->
  lkRead w l = Some v -> lkRead w' l = Some v' -> ~ vsim v v' -> vknown v = true \/ vknown v' = true ->
  (forall t, o = OTol l t -> vknown t = true) ->
  exists d, w_tr w' = w_tr w ++ d /\ (1 <= pubs l d)%nat.
Proof.
  intros H OK OKT S O A A' R R' N K NT. destruct H as [HH HS HO].
  pose proof (history_step _ _ _ _ _ HH OK S) as HH'.
  assert (H : tolHistory ps os w) by (constructor; auto). assert (H' : tolHistory ps (os ++ [o]) w') by (constructor; auto; apply Forall_app; auto).
  destruct (step_T o w w' l (h_INV _ _ _ HH) OK OKT S) as [_ X]; [rewrite (h_onch _ _ _ HH); auto|eapply t_GA; eauto|].
  destruct X as [d [D Z]]. { apply (h_pos _ _ _ HH); auto. } { apply (h_pos _ _ _ HH'); auto. }
  exists d. split; auto. destruct (pubs l d); [|lia]. exfalso. destruct (Z eq_refl) as [Q|[t [Q1 Q2]]]; [|rewrite (NT t Q1) in Q2; discriminate].
  destruct (t_read _ _ _ _ H O _ A R) as [->|[X1 X2]]; destruct (t_read _ _ _ _ H' O _ A' R') as [->|[X3 X4]].
  - destruct Q as [[Q1 Q2]|Q]; auto. destruct K; congruence.
  - rewrite (eqv_known _ _ Q) in K. destruct K; congruence.
  - rewrite <- (eqv_known _ _ Q) in K. destruct K; congruence.
  - destruct K; congruence.
Qed.

(** ** One update of the lookup's state: exactly when the listeners are notified. *)
Lemma t_reads ps os w l s r : tolHistory ps os w -> ls_onch (ps l) = true -> 0 < activeOf os l -> stateOf ps os l = Some s ->
  rdo w l = r -> exists r', lkRead w l = Some r' /\ (r' = r \/ vknown r' = false /\ vknown r = false).
Proof.
  intros H O A E R. destruct H as [HH HS HO]. assert (H : tolHistory ps os w) by (constructor; auto).
  destruct (h_state _ _ _ HH l s A E) as [e [E1 [E2 _]]].
  assert (exists r', lkRead w l = Some r') as [r' RR].
  { unfold lkRead. rewrite (h_act _ _ _ HH l A), E1. unfold getE. rewrite (findKey_live _ _ _ E2). cbn [obind].
    destruct (e_val (w_ent w e)) as [c|]; [|eauto]. destruct (l_onch (w_lk w l)); [|eauto]. destruct (l_cv (w_lk w l)); [eauto|]. destruct (vknown (cv_v c)); eauto. }
  exists r'. split; auto. destruct (t_read _ _ _ _ H O _ A RR) as [->|[X1 X2]]; auto. subst r. auto.
Qed.
Lemma t_upd ps os w w' l s s' u a : tolHistory ps os w -> ls_onch (ps l) = true -> 0 < activeOf os l -> stateOf ps os l = Some s ->
  okState s' -> same_key s s' = true -> vknown (tolOf ps os l) = true -> lkRead w l = Some a -> vknown a = true -> step (OUpd s' u) w = Some w' ->
  exists d t, w_tr w' = w_tr w ++ d /\ vtype (rd w' l) = vtype a /\ thrOK t a /\ tolChanged t (tolOf ps os l) = Some false /\
    ((rd w' l = a /\ pubs l d = 0%nat /\ rdo w' l = a) \/
     exists ex : bool, thrExceeded t (rd w' l) = Some ex /\ pubs l d = (if ex then 1 else 0)%nat /\ rdo w' l = if ex then rd w' l else a).
Proof.
  intros H O A E Hs SK TK R K S. destruct H as [HH HS HO]. assert (H : tolHistory ps os w) by (constructor; auto).
  destruct (h_state _ _ _ HH l s A E) as [e [E1 [E2 [_ E4]]]]. pose proof (h_INV _ _ _ HH) as [V RI].
  pose proof (h_okst _ _ _ HH l s E) as [OS _].
  assert (F : findKey s' (w_map w) = Some e). { rewrite <- (inv_find_cong _ _ s s' V); auto. }
  destruct (t_read _ _ _ _ H O _ A R) as [RR|[X _]]; [|congruence].
  pose proof (t_G _ _ _ _ H O A) as GG. pose proof GG as ([OT HP] & HX & HG). rewrite (t_tol _ _ _ _ H O A) in HG.
  destruct (l_thr (w_lk w l)) as [t|] eqn:TH.
  - destruct HP as (c & e' & ec & X1 & X2 & X3 & X4 & X5). assert (e' = e) by congruence. subst e'.
    destruct (HG t c e ec eq_refl X1 E1 X3) as (_ & Y2 & _). unfold rdo in RR. rewrite X1 in RR. subst a.
    rewrite (thrWk_known _ _ X5), K in Y2. specialize (Y2 eq_refl).
    destruct (upd_exact l w w' s' u e t c) as [d [D [ZT Z]]]; auto.
    + apply INV_listedO; auto. split; auto. eapply t_onch; eauto. apply (h_pos _ _ _ HH); auto.
    + rewrite (i_occ _ _ V) by (eapply findKey_live; eauto). unfold regs, at_ent. now rewrite E4, E1, Nat.eqb_refl.
    + exists d, t. auto.
  - exfalso. destruct (HX eq_refl TH e E1) as [N|N]; [|rewrite (t_tol _ _ _ _ H O A) in N; congruence].
    unfold rdo in RR. rewrite HP in RR. unfold rd in RR. rewrite E1 in RR. unfold entKnown in N. unfold entV in RR.
    destruct (e_val (w_ent w e)); subst a; [congruence|discriminate K].
Qed.
(** An Integer state, tolerance z: the next update b' of the state notifies (once) exactly when
    it is at least the tolerance away from the value last reported, or unknown; otherwise the
    reading does not move. *)
Theorem C27_integer_update ps os w w' l s s' u a z : tolHistory ps os w -> ls_onch (ps l) = true -> 0 < activeOf os l -> stateOf ps os l = Some s ->
  okState s' -> same_key s s' = true -> tolOf ps os l = VInt z -> lkRead w l = Some (VInt a) ->
  int32 z -> int32 (a - Z.abs z) -> int32 (a + Z.abs z) -> step (OUpd s' u) w = Some w' ->
  exists d, w_tr w' = w_tr w ++ d /\
    match current s (w_tr w') with
    | VInt b => (Z.abs (b - a) < Z.abs z -> pubs l d = 0%nat /\ lkRead w' l = Some (VInt a)) /\
                (Z.abs z <= Z.abs (b - a) -> b <> a -> pubs l d = 1%nat /\ lkRead w' l = Some (VInt b))
    | VUnk _ => pubs l d = 1%nat /\ exists r, lkRead w' l = Some r /\ vknown r = false
    | _ => False
    end.
Proof.
  intros H O A E Hs SK TZ R B1 B2 B3 S. destruct H as [HH HS HO]. assert (H : tolHistory ps os w) by (constructor; auto).
  assert (H' : tolHistory ps (os ++ [OUpd s' u]) w').
  { constructor; auto. { eapply history_step; eauto. } apply Forall_app. split; auto. constructor; cbn; auto. }
  assert (A' : 0 < activeOf (os ++ [OUpd s' u]) l). { rewrite activeOf_app. cbn. lia. }
  assert (E' : stateOf ps (os ++ [OUpd s' u]) l = Some s). { unfold stateOf. rewrite fold_left_app. exact E. }
  assert (KT : vknown (tolOf ps os l) = true) by now rewrite TZ.
  destruct (t_upd _ _ _ _ _ _ _ _ _ H O A E Hs SK KT R eq_refl S) as (d & t & D & TT & T1 & T2 & C).
  exists d. split; auto. pose proof (t_rd _ _ _ _ H' s A' E') as V.
  destruct t as [lo hi tol wk|lo hi tol wk]; [|destruct T1 as [T1 _]; discriminate T1].
  assert (wk = true) by (destruct T1 as (_ & X & _); auto). subst wk. rewrite TZ in T2.
  assert (RR : forall r, rdo w' l = r -> exists r', lkRead w' l = Some r' /\ (vknown r = true -> r' = r) /\ vknown r' = vknown r).
  { intros r X. destruct (t_reads _ _ _ _ _ _ H' O A' E' X) as [r' [Q1 Q2]].
    exists r'. split; auto. destruct Q2 as [->|[Q2 Q3]]; auto. split; congruence. }
  destruct C as [(C1 & C2 & C3)|(ex & C1 & C2 & C3)].
  - rewrite C1 in V. apply vsim_int in V. rewrite V. destruct (RR _ C3) as (r' & Q1 & Q2 & _). rewrite (Q2 eq_refl) in Q1. split; auto. intros; congruence.
  - destruct (rd w' l) as [ty| |b| | | | | | | | | |] eqn:RD; try (cbn in C1; discriminate C1).
    + cbn in C1. inversion C1; subst ex. rewrite (vsim_unk _ _ V). split; auto.
      destruct (RR _ C3) as (r' & Q1 & _ & Q3). exists r'. auto.
    + rewrite (vsim_int _ _ V). pose proof (excI _ _ _ _ _ _ _ _ T1 T2 B1 B2 B3 C1) as ->.
      destruct (RR _ C3) as (r' & Q1 & Q2 & _).
      destruct (Z.leb_spec (Z.abs z) (Z.abs (b - a))); rewrite (Q2 eq_refl) in Q1; split; try lia; auto.
Qed.
(** A Real state: an update at least the tolerance away from the reading notifies once and is
    reported; one clearly below it (the tolerance exceeds the distance by more than a 2^-42th of
    the magnitudes involved) does neither. *)
Theorem C27_real_update ps os w w' l s s' u a x t : tolHistory ps os w -> ls_onch (ps l) = true -> 0 < activeOf os l -> stateOf ps os l = Some s ->
  okState s' -> same_key s s' = true -> realOf (tolOf ps os l) = Some (Some (Fin t)) -> lkRead w l = Some (VReal a) -> rkey a = Some (Fin x) ->
  step (OUpd s' u) w = Some w' ->
  exists d, w_tr w' = w_tr w ++ d /\
    match current s (w_tr w') with
    | VReal b => forall y, rkey b = Some (Fin y) ->
        (0 < Z.abs t - Z.abs (y - x) -> Z.abs x + Z.abs y + Z.abs t <= 2 ^ 42 * (Z.abs t - Z.abs (y - x)) -> pubs l d = 0%nat /\ lkRead w' l = Some (VReal a)) /\
        (Z.abs t <= Z.abs (y - x) -> y <> x -> pubs l d = 1%nat /\ exists b', lkRead w' l = Some (VReal b') /\ rkey b' = rkey b)
    | VUnk _ => pubs l d = 1%nat /\ exists r, lkRead w' l = Some r /\ vknown r = false
    | _ => False
    end.
Proof.
  intros H O A E Hs SK TZ R KX S. destruct H as [HH HS HO]. assert (H : tolHistory ps os w) by (constructor; auto).
  assert (H' : tolHistory ps (os ++ [OUpd s' u]) w').
  { constructor; auto. { eapply history_step; eauto. } apply Forall_app. split; auto. constructor; cbn; auto. }
  assert (A' : 0 < activeOf (os ++ [OUpd s' u]) l). { rewrite activeOf_app. cbn. lia. }
  assert (E' : stateOf ps (os ++ [OUpd s' u]) l = Some s). { unfold stateOf. rewrite fold_left_app. exact E. }
  assert (OT : okTol (tolOf ps os l)).
  { destruct (t_G _ _ _ _ H O A) as [[OT _] _]. destruct HH as [_ _ RR]. destruct (run_fields _ _ _ l RR) as (_ & _ & _ & _ & _ & X). now rewrite <- X. }
  assert (KT : vknown (tolOf ps os l) = true) by (destruct (tolOf ps os l); auto; discriminate TZ).
  destruct (t_upd _ _ _ _ _ _ _ _ _ H O A E Hs SK KT R eq_refl S) as (d & th & D & TT & T1 & T2 & C).
  exists d. split; auto. pose proof (t_rd _ _ _ _ H' s A' E') as V.
  destruct th as [lo hi tol wk|lo hi tol wk]; [destruct T1 as [T1 _]; discriminate T1|].
  assert (wk = true) by (destruct T1 as (_ & X & _); auto). subst wk.
  assert (RR : forall r, rdo w' l = r -> exists r', lkRead w' l = Some r' /\ (vknown r = true -> r' = r) /\ vknown r' = vknown r).
  { intros r X. destruct (t_reads _ _ _ _ _ _ H' O A' E' X) as [r' [Q1 Q2]].
    exists r'. split; auto. destruct Q2 as [->|[Q2 Q3]]; auto. split; congruence. }
  destruct C as [(C1 & C2 & C3)|(ex & C1 & C2 & C3)]; destruct (RR _ C3) as (r' & Q1 & Q2 & Q3).
  - rewrite C1 in V. apply vsim_real in V as [b [-> V]]. intros y Y. rewrite (Q2 eq_refl) in Q1. split; auto. intros. exfalso. congruence.
  - destruct (rd w' l) as [ty| | |b0| | | | | | | | |] eqn:RD; try (cbn in C1; discriminate C1).
    + cbn in C1. inversion C1; subst ex. rewrite (vsim_unk _ _ V). split; auto. exists r'. auto.
    + discriminate TT.
    + apply vsim_real in V as [b [-> V]]. intros y Y. rewrite V in Y. split.
      * intros P1 P2. pose proof (excR_out _ _ _ _ _ _ _ _ _ _ _ OT T1 KX T2 Y TZ P1 P2 C1). subst ex. rewrite (Q2 eq_refl) in Q1. auto.
      * intros P1 P2. destruct ex.
        -- rewrite (Q2 eq_refl) in Q1. split; auto. exists b0. auto.
        -- exfalso. destruct (excR_in _ _ _ _ _ _ _ _ _ OT T1 KX T2 Y C1) as (y' & T & Z1 & Z2 & Z3). inversion Z1; subst y'.
           assert (T = Fin t) by congruence. subst T. specialize (Z3 t eq_refl). lia.
Qed.

(** ** Thresholds sent to the interface: the tightest band of the registered change lookups. *)
Lemma surveyI_spec w ls : forall acc lo hi, surveyI w ls acc = Some (Some (lo, hi)) ->
  (forall lo' hi', (acc = Some (lo', hi') \/ exists l tol wk, In l ls /\ lkThr w l = Some (TI lo' hi' tol wk)) -> lo' <= lo /\ hi <= hi') /\
  ((exists h, acc = Some (lo, h)) \/ exists l h tol wk, In l ls /\ lkThr w l = Some (TI lo h tol wk)) /\
  ((exists h, acc = Some (h, hi)) \/ exists l h tol wk, In l ls /\ lkThr w l = Some (TI h hi tol wk)).
Proof.
  induction ls as [|m ls IH]; cbn [surveyI]; intros acc lo hi H.
  - inversion H; subst. split; [|split; left; eauto]. intros lo' hi' [X|(? & ? & ? & [] & _)]. inversion X; lia.
  - destruct (lkThr w m) as [[lo0 hi0 tol0 wk0|]|] eqn:M; [|discriminate|].
    + destruct (IH _ _ _ H) as (A & B & C). split; [|split].
      * intros lo' hi' D. destruct acc as [[alo ahi]|].
        -- destruct (A _ _ (or_introl eq_refl)) as [A1 A2].
           destruct (Z.ltb_spec alo lo0), (Z.ltb_spec hi0 ahi);
             destruct D as [D|(l & tol & wk & [->|I] & D)]; try (inversion D; subst; lia); try (rewrite M in D; inversion D; subst; lia); apply A; right; eauto.
        -- destruct (A _ _ (or_introl eq_refl)) as [A1 A2]. destruct D as [D|(l & tol & wk & [->|I] & D)]; try discriminate; [|apply A; right; eauto].
           rewrite M in D. inversion D; subst. lia.
      * destruct B as [[h B]|(l & h & tol & wk & B1 & B2)]; [|right; exists l, h, tol, wk; split; auto; now right].
        destruct acc as [[alo ahi]|]; inversion B; subst; [destruct (Z.ltb_spec alo lo0)|]; solve [left; eauto | right; exists m; do 3 eexists; split; [now left|eassumption]].
      * destruct C as [[h C]|(l & h & tol & wk & C1 & C2)]; [|right; exists l, h, tol, wk; split; auto; now right].
        destruct acc as [[alo ahi]|]; inversion C; subst; [destruct (Z.ltb_spec hi0 ahi)|]; solve [left; eauto | right; exists m; do 3 eexists; split; [now left|eassumption]].
    + destruct (IH _ _ _ H) as (A & B & C). split; [|split].
      * intros lo' hi' [D|(l & tol & wk & [->|I] & D)]; [apply A; auto|congruence|apply A; right; eauto].
      * destruct B as [B|(l & h & tol & wk & B1 & B2)]; [auto|right; exists l, h, tol, wk; split; auto; now right].
      * destruct C as [C|(l & h & tol & wk & C1 & C2)]; [auto|right; exists l, h, tol, wk; split; auto; now right].
Qed.
(** Integer states: the band sent lies inside the band of every registered active change
    lookup, and both of its ends are the ends of such a band. *)
Theorem C27_interface_band w w' e st lo hi : updateThresholds w e st = Some w' -> w_tr w' = w_tr w ++ [SetTI st hi lo] ->
  (forall l lo' hi' tol wk, In l (e_lk (w_ent w e)) -> lkThr w l = Some (TI lo' hi' tol wk) -> lo' <= lo /\ hi <= hi') /\
  (exists l h tol wk, In l (e_lk (w_ent w e)) /\ lkThr w l = Some (TI lo h tol wk)) /\
  (exists l h tol wk, In l (e_lk (w_ent w e)) /\ lkThr w l = Some (TI h hi tol wk)).
Proof.
  unfold updateThresholds, getE. intros H D. destruct (live w e); [|discriminate]. cbn [obind] in H.
  assert (TR : forall a b : list ev, a ++ b = a -> b = []). { intros a b X. rewrite <- (app_nil_r a) in X at 2. now apply app_inv_head in X. }
  destruct (e_val (w_ent w e)) as [c|]; [|discriminate]. destruct (cvType c =? INTEGER_TYPE).
  - ob H. destruct o as [[lo1 hi1]|].
    + inversion H; subst w'; clear H. cbn in D. apply app_inv_head in D. inversion D; subst.
      destruct (surveyI_spec _ _ _ _ _ E) as (A & B & C). split; [|split].
      * intros l lo' hi' tol wk I J. apply A. right. eauto.
      * destruct B as [[h B]|B]; [discriminate|auto].
      * destruct C as [[h C]|C]; [discriminate|auto].
    + inversion H; subst w'; clear H. destruct (e_thr _); cbn in D; [apply app_inv_head in D; discriminate|]. symmetry in D. apply TR in D. discriminate.
  - destruct (_ || _ || _); [|inversion H; subst; symmetry in D; apply TR in D; discriminate].
    ob H. destruct o as [[lo1 hi1]|].
    + inversion H; subst w'; clear H. cbn in D. apply app_inv_head in D. discriminate.
    + inversion H; subst w'; clear H. destruct (e_thr _); cbn in D; [apply app_inv_head in D; discriminate|]. symmetry in D. apply TR in D. discriminate.
Qed.

Local Transparent current gotSince.
(** ** Concrete cases.  0: change lookup of a, tolerance 5 (constant); 1: change lookup of a,
    tolerance 3 from an expression; 2: change lookup of a, tolerance 1.0. *)
Definition exT (l : nat) : lkspec :=
  match l with
  | 0%nat => mkSpec true true true (Some sA) (VInt 5)
  | 1%nat => mkSpec true true false (Some sA) (VInt 3)
  | _ => mkSpec true true true (Some sA) (VReal (intBits 1))
  end.
Lemma exT_ok l : okSpec (exT l) /\ okTol (ls_tol (exT l)).
Proof. destruct l as [|[|l]]; (split; [split; cbn; [split; unfold okState; constructor|discriminate]|cbn; auto; vm_compute; discriminate]). Qed.
Lemma exT_hist os w : Forall okOp os -> Forall okTolOp os -> run os (init exT) = Some w -> tolHistory exT os w.
Proof. intros A B C. constructor; auto; [constructor; auto|]; intros l; apply exT_ok. Qed.
Definition exTW (os : list op) : world := match run os (init exT) with Some w => w | None => init exT end.
Definition exO1 : list op := [OAct 0 [UVal (VInt 10)]; OAct 1 []; OUpd sA (UVal (VInt 12)); OUpd sA (UVal (VInt 14))].
Lemma ex_O1 : tolHistory exT exO1 (exTW exO1).
Proof. apply exT_hist; [repeat constructor; cbn; auto|repeat constructor; cbn; auto|vm_compute; reflexivity]. Qed.
Lemma ex_sA : okState sA. Proof. constructor. Qed.
Example C27_integer_within_ex : lkRead (exTW exO1) 0 = Some (VInt 10) /\ lkRead (exTW exO1) 1 = Some (VInt 14) /\
  current sA (w_tr (exTW exO1)) = VInt 14 /\ tolOf exT exO1 0 = VInt 5 /\ 0 < activeOf exO1 0 /\ stateOf exT exO1 0 = Some sA.
Proof. vm_compute. repeat split; auto. Qed.
Example C27_integer_update_ex : exists w1 w2, step (OUpd sA (UVal (VInt 13))) (exTW exO1) = Some w1 /\ step (OUpd sA (UVal (VInt 15))) (exTW exO1) = Some w2 /\
  lkRead w1 0 = Some (VInt 10) /\ lkRead w2 0 = Some (VInt 15) /\ current sA (w_tr w2) = VInt 15.
Proof. do 2 eexists. split; [vm_compute; reflexivity|]. split; [vm_compute; reflexivity|]. vm_compute. auto. Qed.
Example C27_interface_band_ex : w_tr (exTW [OAct 0 [UVal (VInt 10)]; OAct 1 []]) = [Ask sA; Got sA (UVal (VInt 10)); SetTI sA 15 5; Pub 0; Pub 0; SetTI sA 13 7; Pub 1].
Proof. vm_compute. reflexivity. Qed.
Definition exO2 : list op := [OAct 2 [UVal (VReal (intBits 10))]; OUpd sA (UVal (VReal (intBits 10)))].
Lemma ex_O2 : tolHistory exT exO2 (exTW exO2).
Proof. apply exT_hist; [repeat constructor; cbn; auto|repeat constructor; cbn; auto|vm_compute; reflexivity]. Qed.
(** 10.5 is not reported, 11.0 is. *)
Definition half10 : Z := 4622100592565682176.
Example C27_real_update_ex : exists w1 w2, step (OUpd sA (UVal (VReal half10))) (exTW exO2) = Some w1 /\
  step (OUpd sA (UVal (VInt 11))) (exTW exO2) = Some w2 /\
  lkRead w1 2 = Some (VReal (intBits 10)) /\ lkRead w2 2 = Some (VReal (intBits 11)) /\ current sA (w_tr w1) = VReal half10 /\
  exists x y t, rkey (intBits 10) = Some (Fin x) /\ rkey half10 = Some (Fin y) /\ realOf (tolOf exT exO2 2) = Some (Some (Fin t)) /\
    0 < Z.abs t - Z.abs (y - x) /\ Z.abs x + Z.abs y + Z.abs t <= 2 ^ 42 * (Z.abs t - Z.abs (y - x)).
Proof.
  do 2 eexists. split; [vm_compute; reflexivity|]. split; [vm_compute; reflexivity|]. split; [vm_compute; auto|]. split; [vm_compute; auto|]. split; [vm_compute; auto|].
  do 3 eexists. split; [vm_compute; reflexivity|]. split; [vm_compute; reflexivity|]. split; [vm_compute; reflexivity|]. split; vm_compute; congruence.
Qed.
Definition exO3 : list op := exO1 ++ [OTol 1 (VUnk INTEGER_TYPE)].
Example C27_unknown_tolerance_ex : tolHistory exT exO3 (exTW exO3) /\ vknown (tolOf exT exO3 1) = false /\ lkRead (exTW exO3) 1 = Some (VInt 14).
Proof. split; [apply exT_hist; [repeat constructor; cbn; auto|repeat constructor; cbn; auto|vm_compute; reflexivity]|]. vm_compute. auto. Qed.
Example C27_no_silent_change_ex : exists w', step (OUpd sA (UVal (VInt 20))) (exTW exO1) = Some w' /\ lkRead w' 0 = Some (VInt 20) /\ ~ vsim (VInt 10) (VInt 20).
Proof. eexists. split; [vm_compute; reflexivity|]. split; [vm_compute; reflexivity|]. intros [X|[_ X]]; discriminate X. Qed.

(** ** What does not hold *)
(** Integer states: after the value became unknown, a known value inside the old band is not
    reported (Lookup.cc 627-638 does not look at m_wasKnown): the reading stays unknown although
    the state is known and the lookup claims to be. *)
Theorem C27_unknown_sticks_refuted : exists os w w' u, tolHistory exT os w /\ step (OUpd sA u) w = Some w' /\
  current sA (w_tr w') = VInt 12 /\ lkKnown w' 0 = Some true /\ lkRead w' 0 = Some (VUnk INTEGER_TYPE) /\
  w_tr w' = w_tr w ++ [Got sA u].
Proof.
  exists [OAct 0 [UVal (VInt 10)]; OUpd sA UUnk]. eexists. eexists. exists (UVal (VInt 12)). split.
  { apply exT_hist; [repeat constructor; cbn; auto|repeat constructor; cbn; auto|vm_compute; reflexivity]. }
  split; [vm_compute; reflexivity|]. vm_compute. auto 10.
Qed.
(** When the tolerance becomes unknown the reading jumps to the current value without any
    notification (Lookup.cc 1020-1029 keeps valueChanged). *)
Theorem C27_tolerance_lost_refuted : exists os w w' t, tolHistory exT os w /\ step (OTol 1 t) w = Some w' /\
  lkRead w 1 = Some (VInt 10) /\ lkRead w' 1 = Some (VInt 12) /\ exists d, w_tr w' = w_tr w ++ d /\ pubs 1 d = 0%nat.
Proof.
  exists [OAct 1 [UVal (VInt 10)]; OUpd sA (UVal (VInt 12))]. eexists. eexists. exists (VUnk INTEGER_TYPE). split.
  { apply exT_hist; [repeat constructor; cbn; auto|repeat constructor; cbn; auto|vm_compute; reflexivity]. }
  split; [vm_compute; reflexivity|]. split; [vm_compute; auto|]. split; [vm_compute; auto|]. exists [ClrT sA]. vm_compute. auto.
Qed.
(** 32-bit overflow of a threshold: a change by one is reported as if it exceeded the tolerance
    5 (signed overflow, undefined in C++; wrapping is assumed here). *)
Theorem C27_overflow_refuted : exists os w w' u, tolHistory exT os w /\ step (OUpd sA u) w = Some w' /\
  lkRead w 0 = Some (VInt 2147483645) /\ current sA (w_tr w') = VInt 2147483644 /\ lkRead w' 0 = Some (VInt 2147483644).
Proof.
  exists [OAct 0 [UVal (VInt 2147483645)]]. eexists. eexists. exists (UVal (VInt 2147483644)). split.
  { apply exT_hist; [repeat constructor; cbn; auto|repeat constructor; cbn; auto|vm_compute; reflexivity]. }
  split; [vm_compute; reflexivity|]. vm_compute. auto.
Qed.
(** Once the reading is a NaN no known Real value is ever reported again. *)
Definition nanBits : Z := 9221120237041090560.
Theorem C27_nan_sticks_refuted : exists os w w' u, tolHistory exT os w /\ step (OUpd sA u) w = Some w' /\
  current sA (w_tr w') = VReal (intBits 1000) /\ lkRead w' 2 = Some (VReal nanBits) /\ w_tr w' = w_tr w ++ [Got sA u].
Proof.
  exists [OAct 2 [UVal (VReal nanBits)]]. eexists. eexists. exists (UVal (VInt 1000)). split.
  { apply exT_hist; [repeat constructor; cbn; auto|repeat constructor; cbn; auto|vm_compute; reflexivity]. }
  split; [vm_compute; reflexivity|]. vm_compute. auto 10.
Qed.
(** A Real tolerance on an Integer state is a fatal error at run time (Lookup.cc 590). *)
Theorem C27_real_tolerance_integer_state_refuted : exists os w, tolHistory exT os w /\ current sA (w_tr w) = VInt 3 /\ step (OAct 2 []) w = None.
Proof.
  exists [OUpd sA (UVal (VInt 3))]. eexists. split.
  { apply exT_hist; [repeat constructor; cbn; auto|repeat constructor; cbn; auto|vm_compute; reflexivity]. }
  split; vm_compute; reflexivity.
Qed.
(** A new tolerance is not passed on to the interface (Lookup.cc 1002-1006): the interface keeps
    the band [7,13] although the lookup now needs [9,11]. *)
Theorem C27_interface_stale_refuted : exists os w w', tolHistory exT os w /\ step (OTol 1 (VInt 1)) w = Some w' /\
  w_tr w = [Ask sA; Got sA (UVal (VInt 10)); Pub 1; SetTI sA 13 7; Pub 1] /\ w_tr w' = w_tr w /\
  exists tol wk, lkThr w' 1 = Some (TI 9 11 tol wk).
Proof.
  exists [OAct 1 [UVal (VInt 10)]]. eexists. eexists. split.
  { apply exT_hist; [repeat constructor; cbn; auto|repeat constructor; cbn; auto|vm_compute; reflexivity]. }
  split; [vm_compute; reflexivity|]. split; [vm_compute; reflexivity|]. split; [vm_compute; reflexivity|]. vm_compute. eauto.
Qed.
(** When the last lookup goes away the interface is not told to drop its thresholds
    (StateCacheEntry.cc 131-134). *)
Theorem C27_interface_not_cleared_refuted : exists os w, tolHistory exT os w /\ (forall l, activeOf os l = 0) /\
  (exists hi lo, In (SetTI sA hi lo) (w_tr w)) /\ ~ In (ClrT sA) (w_tr w).
Proof.
  exists [OAct 0 [UVal (VInt 10)]; ODeact 0]. eexists. split.
  { apply exT_hist; [repeat constructor; cbn; auto|repeat constructor; cbn; auto|vm_compute; reflexivity]. }
  split; [intros [|l]; reflexivity|]. split; [exists 15, 5; vm_compute; auto|]. vm_compute. intuition discriminate.
Qed.

(** Assumptions *)
Print Assumptions C27_integer_within.
Print Assumptions C27_real_within.
Print Assumptions C27_known.
Print Assumptions C27_unknown_tolerance.
Print Assumptions C27_no_silent_change.
Print Assumptions C27_integer_update.
Print Assumptions C27_real_update.
Print Assumptions C27_interface_band.
Print Assumptions C27_unknown_sticks_refuted.
Print Assumptions C27_tolerance_lost_refuted.
Print Assumptions C27_overflow_refuted.
Print Assumptions C27_nan_sticks_refuted.
Print Assumptions C27_real_tolerance_integer_state_refuted.
Print Assumptions C27_interface_stale_refuted.
Print Assumptions C27_interface_not_cleared_refuted.
