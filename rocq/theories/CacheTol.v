(** Invariants of change lookups (LookupOnChange): locally cached value and thresholds. *)
From Verif Require Import ValueModel RealModel RealProofs CacheModel CacheSpec OrderProps CacheProofs CacheProofs2 CacheFresh CacheProofs3 CacheProofs4 CacheProofs5 CacheProofs6.
Open Scope Z_scope.

Definition okTol (v : val) : Prop := match v with VReal r => rkey r <> None | _ => True end.
(** The thresholds describe the locally cached value. *)
Definition thrOK (t : thr) (v : val) : Prop :=
  match t with
  | TI lo hi tol wk => vtype v = INTEGER_TYPE /\ vknown v = wk /\ (forall b, v = VInt b -> lo = wrap32 (b - tol) /\ hi = wrap32 (b + tol))
  | TR lo hi tol wk => vtype v = REAL_TYPE /\ vknown v = wk /\ (forall b, v = VReal b -> lo = rsub (rkey b) tol /\ hi = radd (rkey b) tol)
  end.
Definition thrWk (t : thr) : bool := match t with TI _ _ _ wk => wk | TR _ _ _ wk => wk end.
Definition P (l : nat) (w : world) : Prop :=
  let x := w_lk w l in okTol (l_tol x) /\
  match l_thr x with
  | None => l_cv x = None
  | Some t => exists c e ec, l_cv x = Some c /\ l_ent x = Some e /\ e_val (w_ent w e) = Some ec /\ cvType c = cvType ec /\ thrOK t (cv_v c)
  end.
(** Thresholds exist whenever they can (b = true: required). *)
Definition Hx (b : bool) (l : nat) (w : world) : Prop :=
  b = true -> l_thr (w_lk w l) = None -> forall e, l_ent (w_lk w l) = Some e -> entKnown (w_ent w e) = false \/ vknown (lkTol (w_lk w l)) = false.
Definition G (b : bool) (l : nat) (w : world) : Prop :=
  P l w /\ Hx b l w /\
  forall t c e ec, l_thr (w_lk w l) = Some t -> l_cv (w_lk w l) = Some c -> l_ent (w_lk w l) = Some e -> e_val (w_ent w e) = Some ec ->
    vknown (lkTol (w_lk w l)) = true /\ (thrWk t = true -> tolChanged t (lkTol (w_lk w l)) = Some false) /\
    (cv_v c = cv_v ec \/ thrExceeded t (cv_v ec) = Some false).
Lemma G_none' b l w : okTol (l_tol (w_lk w l)) -> l_thr (w_lk w l) = None -> l_cv (w_lk w l) = None -> Hx b l w -> G b l w.
Proof. intros T A B. split. { unfold P. rewrite A. auto. } split; auto. rewrite A. discriminate. Qed.
Lemma G_none l w : okTol (l_tol (w_lk w l)) -> l_thr (w_lk w l) = None -> l_cv (w_lk w l) = None -> G false l w.
Proof. intros. apply G_none'; auto. intros X. discriminate X. Qed.
(** The value a change lookup reports. *)
Definition rdo (w : world) (l : nat) : val := match l_cv (w_lk w l) with Some c => cv_v c | None => rd w l end.

(** G depends only on the lookup and on its entry's value. *)
Lemma P_ext l w w' : w_lk w' l = w_lk w l -> (forall e, l_ent (w_lk w l) = Some e -> e_val (w_ent w' e) = e_val (w_ent w e)) -> P l w -> P l w'.
Proof.
  unfold P. intros -> E [T H]. split; auto. destruct (l_thr (w_lk w l)); auto.
  destruct H as (c & e & ec & A & B & C & D). exists c, e, ec. rewrite E; auto.
Qed.
Lemma Hx_ext b l w w' : w_lk w' l = w_lk w l -> (forall e, l_ent (w_lk w l) = Some e -> e_val (w_ent w' e) = e_val (w_ent w e)) -> Hx b l w -> Hx b l w'.
Proof. unfold Hx, entKnown. intros -> E H B T e He. rewrite E by auto. auto. Qed.
Lemma G_ext b l w w' : w_lk w' l = w_lk w l -> (forall e, l_ent (w_lk w l) = Some e -> e_val (w_ent w' e) = e_val (w_ent w e)) -> G b l w -> G b l w'.
Proof.
  intros X E [A [C B]]. split; [eapply P_ext; eauto|]. split; [eapply Hx_ext; eauto|]. rewrite X. intros t c e ec T1 T2 T3 T4. rewrite E in T4 by auto. eauto.
Qed.
Lemma rdo_ext l w w' : w_lk w' l = w_lk w l -> (forall e, l_ent (w_lk w l) = Some e -> e_val (w_ent w' e) = e_val (w_ent w e)) -> rdo w' l = rdo w l.
Proof.
  unfold rdo, rd. intros -> E. destruct (l_cv _); auto. destruct (l_ent (w_lk w l)); auto. unfold entV. now rewrite E.
Qed.

(** updateThresholds only touches threshold flags and the trace. *)
Lemma updT_lk w e st w' : updateThresholds w e st = Some w' -> w_lk w' = w_lk w.
Proof.
  unfold updateThresholds. intros H. ob H. destruct (e_val e0); [|discriminate].
  destruct (cvType c =? INTEGER_TYPE); [|destruct (_ || _ || _)].
  - ob H. destruct o as [[lo hi]|]; inversion H; subst; clear H; auto. destruct (e_thr e0); auto.
  - ob H. destruct o as [[lo hi]|]; inversion H; subst; clear H; auto. destruct (e_thr e0); auto.
  - inversion H; auto.
Qed.
Lemma updI_other w l vc p k : updateInternal w l vc = Some p -> k <> l -> w_lk (fst p) k = w_lk w k.
Proof.
  intros H N. assert (TC : forall t c, w_lk (setLkTC w l t c) k = w_lk w k) by (intros; cbn; now rewrite updf_other).
  unfold updateInternal in H. destruct (l_thr (w_lk w l)).
  - ob H. destruct (vknown _).
    + do 5 ob H. destruct b0.
      * do 4 ob H. inversion H; subst; cbn [fst]. rewrite (updT_lk _ _ _ _ E8). apply TC.
      * inversion H; subst; cbn [fst]. apply TC.
    + ob H. inversion H; subst; cbn [fst]. rewrite (updT_lk _ _ _ _ E0). apply TC.
  - destruct (l_ent _). 2:{ inversion H; auto. }
    ob H. destruct (_ && _).
    + do 5 ob H. inversion H; subst; cbn [fst]. rewrite (updT_lk _ _ _ _ E4). apply TC.
    + inversion H; auto.
Qed.
Lemma vc_other m w w' k : valueChanged m w = Some w' -> k <> m -> w_lk w' k = w_lk w k.
Proof.
  intros H N. unfold valueChanged in H. destruct (l_onch _).
  - destruct (lkActive _); [|inversion H; auto]. ob H. inversion H; subst. rewrite <- (updI_other _ _ _ _ k E N).
    destruct (snd p); auto. unfold publish. destruct lkActive; auto.
  - inversion H. unfold publish. destruct lkActive; auto.
Qed.

(** setThresholds establishes thrOK for the value it was given and stores the tolerance. *)
Lemma tolChanged_self t v tv : okTol tv -> (exists t0, setThr t0 v tv = Some t) -> vknown v = true -> tolChanged t tv = Some false.
Proof.
  intros OT [t0 H] K. destruct t0; cbn in H.
  - destruct (tolI tv) eqn:E; [|discriminate]. destruct v; try discriminate. inversion H; subst. cbn. rewrite E. cbn. now rewrite Z.eqb_refl.
  - destruct (tolR tv) eqn:E; [|discriminate]. assert (E' : oext_eq r r = true).
    { assert (exists x, r = Some x) as [x ->].
      { unfold tolR, realOf in E. destruct tv; try discriminate; cbn -[rkey ikey] in E.
        - inversion E. destruct (n * _ <? 0); eauto.
        - cbn in OT. match goal with O : rkey ?b <> None |- _ => destruct (rkey b) eqn:R; [|congruence] end. inversion E. destruct (ext_lt e (Fin 0)), e; cbn; eauto. }
      destruct x; cbn; auto. apply Z.eqb_refl. }
    destruct v; try discriminate; cbn -[rkey ikey] in H; inversion H; subst; cbn; rewrite E; cbn; rewrite E'; auto.
Qed.
Lemma setThr_OK t v tv t' : setThr t v tv = Some t' ->
  (match t with TI _ _ _ _ => vtype v = INTEGER_TYPE | TR _ _ _ _ => vtype v = REAL_TYPE end) -> thrOK t' v.
Proof.
  intros H K. destruct t; cbn in H.
  - destruct (tolI tv); [|discriminate]. destruct v; try discriminate; inversion H; subst; cbn.
    + split; auto. split; auto. discriminate.
    + split; auto. split; auto. intros b E. inversion E; auto.
  - destruct (tolR tv); [|discriminate]. destruct v; try discriminate; cbn -[rkey ikey] in H; inversion H; subst; cbn.
    + split; auto. split; auto. discriminate.
    + split; auto. split; auto. intros b' E. inversion E; auto.
Qed.
Lemma thrOK_kind t v : thrOK t v -> match t with TI _ _ _ _ => vtype v = INTEGER_TYPE | TR _ _ _ _ => vtype v = REAL_TYPE end.
Proof. destruct t; cbn; tauto. Qed.
Lemma thrWk_known t v : thrOK t v -> thrWk t = vknown v. Proof. destruct t; cbn; intuition. Qed.

(** updateInternal re-establishes the invariant. *)
Lemma getE_val w e en : getE w e = Some en -> en = w_ent w e /\ live w e = true.
Proof. unfold getE. destruct (live w e); [|discriminate]. intros H; inversion H; auto. Qed.
Lemma lkTol_TC w l t c : lkTol (w_lk (setLkTC w l t c) l) = lkTol (w_lk w l).
Proof. cbn. rewrite updf_same. reflexivity. Qed.
Lemma okTol_lk x : okTol (l_tol x) -> okTol (lkTol x). Proof. unfold lkTol. destruct (_ || _); cbn; auto. Qed.
Lemma G_TC b l w w' t c e ec : w_lk w' = w_lk (setLkTC w l (Some t) (Some c)) -> (forall e, e_val (w_ent w' e) = e_val (w_ent w e)) ->
  okTol (l_tol (w_lk w l)) -> l_ent (w_lk w l) = Some e -> e_val (w_ent w e) = Some ec -> cvType c = cvType ec -> thrOK t (cv_v c) ->
  vknown (lkTol (w_lk w l)) = true -> (thrWk t = true -> tolChanged t (lkTol (w_lk w l)) = Some false) ->
  (cv_v c = cv_v ec \/ thrExceeded t (cv_v ec) = Some false) -> G b l w'.
Proof.
  intros L E OT A B C D F K M. unfold G, P, Hx. rewrite L. cbn. rewrite updf_same. cbn. split; [|split].
  - split; auto. exists c, e, ec. rewrite E. auto.
  - intros _ X. discriminate X.
  - intros t' c' e' ec' T1 T2 T3 T4. inversion T1; inversion T2; subst. assert (e' = e) by congruence. subst. rewrite E in T4.
    assert (ec' = ec) by congruence. subst. unfold lkTol in *. cbn. auto.
Qed.
Lemma G_drop b l w w' : w_lk w' = w_lk (setLkTC w l None None) -> okTol (l_tol (w_lk w l)) -> vknown (lkTol (w_lk w l)) = false -> G b l w'.
Proof. intros L OT TK. apply G_none'; [| | |unfold Hx]; rewrite L; cbn; rewrite updf_same; auto. Qed.
Lemma UI q l w vc p : P l w -> updateInternal w l vc = Some p ->
  G q l (fst p) /\
  (snd p = false -> rdo (fst p) l = rdo w l \/ (vc = false /\ l_thr (w_lk w l) <> None /\ vknown (lkTol (w_lk w l)) = false)) /\
  (vc = true -> l_thr (w_lk w l) = None -> snd p = true) /\
  (* with thresholds and a known tolerance *)
  (forall t0 c, l_thr (w_lk w l) = Some t0 -> l_cv (w_lk w l) = Some c -> vknown (lkTol (w_lk w l)) = true ->
     exists t1 ex, thrOK t1 (cv_v c) /\ (vknown (cv_v c) = true -> tolChanged t1 (lkTol (w_lk w l)) = Some false) /\
       (tolChanged t0 (lkTol (w_lk w l)) = Some false -> t1 = t0) /\
       thrExceeded t1 (rd w l) = Some ex /\ snd p = ex /\ rdo (fst p) l = if ex then rd w l else cv_v c).
Proof.
  intros [OT HP] H. unfold updateInternal in H. destruct (l_thr (w_lk w l)) as [t0|] eqn:TH.
  - destruct HP as (c & e & ec & C1 & C2 & C3 & C4 & C5). rewrite C2, C1 in H. cbn [obind] in H.
    assert (RD : rd w l = cv_v ec). { unfold rd. rewrite C2. unfold entV. now rewrite C3. }
    destruct (vknown (lkTol (w_lk w l))) eqn:TK.
    + do 5 ob H. rename b into ch, t into t1, e0 into en, c0 into v1, b0 into ex.
      apply getE_val in E1 as [-> LV]. rewrite C3 in E2. inversion E2; subst v1; clear E2.
      assert (OK1 : thrOK t1 (cv_v c)).
      { destruct ch; [|inversion E0; subst; auto]. eapply setThr_OK; eauto. now apply thrOK_kind. }
      assert (TC1 : vknown (cv_v c) = true -> tolChanged t1 (lkTol (w_lk w l)) = Some false).
      { intros K. destruct ch; [|inversion E0; subst; auto]. eapply tolChanged_self; eauto. now apply okTol_lk. }
      destruct ex.
      * do 3 ob H. inversion H; subst; clear H. cbn [fst snd].
        unfold assignCv in E1. rewrite C4, Z.eqb_refl in E1. inversion E1; subst c0. clear E1.
        pose proof (updT_lk _ _ _ _ E4) as LK. pose proof (quiet_updT _ _ _ _ E4) as Q.
        assert (GG : G q l w0).
        { assert (OK2 : thrOK t (cv_v ec)). { eapply setThr_OK; eauto. apply thrOK_kind in OK1. unfold cvType in C4. rewrite <- C4. exact OK1. }
          eapply (G_TC q l w w0 t ec e ec); eauto.
          - intros e'. rewrite (q_val _ _ _ Q e'). reflexivity.
          - intros K. eapply tolChanged_self; eauto. now apply okTol_lk. rewrite <- (thrWk_known _ _ OK2). auto. }
        split; auto. split; [discriminate|]. split; [discriminate|].
        intros t0' c' X1 X2 _. inversion X1; subst t0'. rewrite X2 in C1. inversion C1; subst c'. exists t1, true. split; auto. split; auto. split.
        { intros X. rewrite X in E. inversion E; subst ch. inversion E0; auto. }
        rewrite RD. split; auto. split; auto. unfold rdo. rewrite LK. cbn. rewrite updf_same. reflexivity.
      * inversion H; subst; clear H. cbn [fst snd].
        assert (RO : rdo (setLkTC w l (Some t1) (Some c)) l = rdo w l). { unfold rdo. cbn. rewrite updf_same. cbn. now rewrite C1. }
        split. { eapply (G_TC q l w _ t1 c e ec); eauto. intros K. apply TC1. rewrite <- (thrWk_known _ _ OK1). auto. }
        split; [auto|]. split; [discriminate|].
        intros t0' c' X1 X2 _. inversion X1; subst t0'. rewrite X2 in C1. inversion C1; subst c'. exists t1, false. split; auto. split; auto. split.
        { intros X. rewrite X in E. inversion E; subst ch. inversion E0; auto. }
        rewrite RD. split; auto. split; auto. rewrite RO. unfold rdo. now rewrite X2.
    + ob H. inversion H; subst; clear H. cbn [fst snd]. pose proof (updT_lk _ _ _ _ E) as LK.
      split. { apply (G_drop q l w); auto. }
      split. { intros ->. right. split; auto. split; auto. discriminate. } split; [discriminate|]. intros; discriminate.
  - destruct (l_ent (w_lk w l)) as [e|] eqn:EN.
    2:{ inversion H; subst; cbn [fst snd]. split; [apply G_none'; auto; unfold Hx, entKnown; intros _ _ e' He; rewrite EN in He; inversion He; subst; try rewrite EV; auto|]. split; auto. split; auto. intros; discriminate. }
    ob H. apply getE_val in E as [-> LV]. unfold entKnown in H. destruct (e_val (w_ent w e)) as [ec|] eqn:EV.
    2:{ cbn in H. inversion H; subst; cbn [fst snd]. split; [apply G_none'; auto; unfold Hx, entKnown; intros _ _ e' He; rewrite EN in He; inversion He; subst; try rewrite EV; auto|]. split; auto. split; auto. intros; discriminate. }
    destruct (vknown (cv_v ec)) eqn:KE; cbn [andb] in H.
    2:{ inversion H; subst; cbn [fst snd]. split; [apply G_none'; auto; unfold Hx, entKnown; intros _ _ e' He; rewrite EN in He; inversion He; subst; try rewrite EV; auto|]. split; auto. split; auto. intros; discriminate. }
    destruct (vknown (lkTol (w_lk w l))) eqn:KT.
    2:{ inversion H; subst; cbn [fst snd]. split; [apply G_none'; auto; unfold Hx, entKnown; intros _ _ e' He; rewrite EN in He; inversion He; subst; try rewrite EV; auto|]. split; auto. split; auto. intros; discriminate. }
    do 5 ob H. inversion H; subst; clear H. cbn [fst snd]. inversion E; subst c. clear E. rewrite HP in E1. inversion E1; subst c0; clear E1.
    pose proof (updT_lk _ _ _ _ E3) as LK. pose proof (quiet_updT _ _ _ _ E3) as Q.
    assert (KD : match t with TI _ _ _ _ => vtype (cv_v ec) = INTEGER_TYPE | TR _ _ _ _ => vtype (cv_v ec) = REAL_TYPE end).
    { unfold thrFactory, cvType in E0. destruct (Z.eqb_spec (vtype (cv_v ec)) INTEGER_TYPE); [inversion E0; auto|].
      destruct (Z.eqb_spec (vtype (cv_v ec)) UNKNOWN_TYPE) as [X|X]; [destruct (cv_v ec); cbn in *; discriminate|].
      destruct (Z.eqb_spec (vtype (cv_v ec)) DATE_TYPE) as [X'|X']; [destruct (cv_v ec); cbn in *; discriminate|].
      destruct (Z.eqb_spec (vtype (cv_v ec)) DURATION_TYPE) as [X2|X2]; [destruct (cv_v ec); cbn in *; discriminate|].
      destruct (Z.eqb_spec (vtype (cv_v ec)) REAL_TYPE) as [X3|X3]; [inversion E0; auto|discriminate]. }
    split.
    { eapply (G_TC q l w w0 t0 ec e ec); eauto.
      - intros e'. rewrite (q_val _ _ _ Q e'). reflexivity.
      - eapply setThr_OK; eauto.
      - intros K. eapply tolChanged_self; eauto. now apply okTol_lk. }
    split; [|split; [auto|intros; discriminate]]. intros _. left. unfold rdo. rewrite LK. cbn. rewrite updf_same. cbn. rewrite HP. unfold rd. rewrite EN.
    unfold entV. now rewrite EV.
Qed.
