(** Invariants of the state cache model: operations. *)
From Coq Require Import Permutation.
From Verif Require Import ValueModel RealModel RealProofs CacheModel CacheSpec OrderProps CacheProofs.
Open Scope Z_scope.

Lemma pubs_app l a b : pubs l (a ++ b) = (pubs l a + pubs l b)%nat.
Proof. unfold pubs. rewrite flat_map_app. apply count_occ_app. Qed.
Lemma pubs_T l d : Forall softT d -> pubs l d = 0%nat.
Proof. unfold pubs. induction 1 as [|v d Hv F IH]; cbn; auto. destruct v; cbn in *; tauto. Qed.
Lemma core_active x y : core x = core y -> lkActive x = lkActive y.
Proof. intros H. inversion H. unfold lkActive. congruence. Qed.
Lemma core_onch x y : core x = core y -> l_onch x = l_onch y.
Proof. intros H. now inversion H. Qed.

(** Notification of a list of lookups: a plain lookup is published once per occurrence. *)
Lemma vc_pubs m w w' l : l_onch (w_lk w l) = false -> valueChanged m w = Some w' ->
  exists d, w_tr w' = w_tr w ++ d /\ Forall soft d /\
            pubs l d = (if Nat.eqb m l && lkActive (w_lk w l) then 1 else 0)%nat.
Proof.
  intros P H. unfold valueChanged in H. destruct (l_onch (w_lk w m)) eqn:O.
  - assert (N : m <> l) by congruence. rewrite (proj2 (Nat.eqb_neq m l) N). cbn.
    destruct (lkActive (w_lk w m)).
    + ob H. inversion H; subst; clear H. destruct (quiet_updI _ _ _ _ E) as [_ _ _ _ _ Q6 [d [Q7 Q8]]].
      assert (SD : Forall soft d) by (eapply Forall_impl; [|exact Q8]; intros []; cbn; tauto).
      destruct (snd p).
      * unfold publish. destruct lkActive.
        -- exists (d ++ [Pub m]). cbn. rewrite Q7, app_assoc. split; auto. split.
           { apply Forall_app. split; auto. constructor; auto. exact I. }
           rewrite pubs_app, pubs_T by auto. unfold pubs. cbn. destruct (Nat.eq_dec m l); congruence.
        -- exists d. split; auto. split; auto. now apply pubs_T.
      * exists d. split; auto. split; auto. now apply pubs_T.
    + inversion H; subst. exists []. rewrite app_nil_r. auto.
  - inversion H; subst. unfold publish. destruct (Nat.eqb_spec m l) as [->|N]; cbn.
    + destruct (lkActive (w_lk w l)).
      * exists [Pub l]. cbn. split; auto. split; [constructor; auto; exact I|]. unfold pubs. cbn. destruct (Nat.eq_dec l l); congruence.
      * exists []. rewrite app_nil_r. auto.
    + destruct (lkActive (w_lk w m)).
      * exists [Pub m]. cbn. split; auto. split; [constructor; auto; exact I|]. unfold pubs. cbn. destruct (Nat.eq_dec m l); congruence.
      * exists []. rewrite app_nil_r. auto.
Qed.
Lemma notify_pubs l ls : forall w w', l_onch (w_lk w l) = false -> notifyAll ls w = Some w' ->
  exists d, w_tr w' = w_tr w ++ d /\ Forall soft d /\
            pubs l d = (if lkActive (w_lk w l) then occ ls l else 0)%nat.
Proof.
  induction ls as [|m ls IH]; cbn; intros w w' P H.
  - inversion H; subst. exists []. rewrite app_nil_r. destruct lkActive; auto.
  - ob H. destruct (vc_pubs m w w0 l P E) as [d [D1 [D2 D3]]].
    pose proof (q_core _ _ _ (quiet_vc _ _ _ E) l) as C.
    destruct (IH w0 w') as [d' [D1' [D2' D3']]]; auto. { now rewrite (core_onch _ _ C). }
    exists (d ++ d'). rewrite D1', D1, app_assoc. split; auto. split; [apply Forall_app; auto|].
    rewrite pubs_app, D3, D3', (core_active _ _ C). unfold occ. cbn.
    destruct (Nat.eq_dec m l) as [->|N].
    + rewrite Nat.eqb_refl. destruct lkActive; cbn; auto.
    + rewrite (proj2 (Nat.eqb_neq m l) N). destruct lkActive; cbn; auto.
Qed.

(** Storing a new value for state s in its entry. *)
Lemma live_map w w' e : w_map w' = w_map w -> live w' e = live w e.
Proof. unfold live. intros ->. reflexivity. Qed.
Lemma inv_setVal rg w s u e c : inv rg w -> okState s -> findKey s (w_map w) = Some e ->
  vsim (cv_v c) (valueAfter (current s (w_tr w)) u) -> goodCv c ->
  inv rg (setVal (emit w (Got s u)) e c).
Proof.
  intros V Hs F S G. pose proof (inv_find rg w V) as FD. destruct V.
  destruct (findKey_in _ _ _ F) as [k0 [I0 K0]].
  constructor; cbn; auto.
  - intros k v I. apply in_app_iff in I as [I|[I|[]]]; eauto. inversion I; subst; auto.
  - intros k I. apply in_app_iff in I as [I|[I|[]]]; eauto. inversion I.
  - intros k e' I. rewrite current_got. unfold updf. destruct (Nat.eqb_spec e' e) as [->|N]; cbn.
    + assert (same_key s k = true) as SK.
      { rewrite same_key_sym. 
        destruct (same_key k s) eqn:E; auto.
        assert (EK : (k0, e) = (k, e)); [|inversion EK; congruence].
        clear - i_nodup I I0. induction (w_map w) as [|[a x] m IH]; [destruct I|]. cbn in *. inversion i_nodup; subst.
        destruct I0 as [I0|I0], I as [I|I]; auto; try congruence.
        - inversion I0; subst. exfalso. apply H1. apply in_map_iff. exists (k, e). auto.
        - inversion I; subst. exfalso. apply H1. apply in_map_iff. exists (k0, e). auto. }
      rewrite SK. unfold entV. cbn. rewrite (current_cong k s); auto. eauto. now rewrite same_key_sym.
    + assert (same_key s k = false) as ->; [|eauto].
      destruct (same_key s k) eqn:E; auto. exfalso. apply N. rewrite same_key_sym in E.
      pose proof (FD s k e' Hs I E). congruence.
  - intros e'. unfold updf. destruct (Nat.eqb e' e); auto.
  - intros s' Hs' F'. rewrite current_got. destruct (same_key s s') eqn:E; auto.
    assert (same_key k0 s' = true) by (apply (same_key_trans k0 s s'); eauto). rewrite (findKey_none _ _ F' _ _ I0) in H. discriminate.
  - intros e' l L. unfold updf. destruct (Nat.eqb_spec e' e) as [->|N]; cbn; apply i_occ; auto.
Qed.
Lemma inv_got_only rg w s u e : inv rg w -> okState s -> findKey s (w_map w) = Some e ->
  vsim (entV (w_ent w e)) (valueAfter (current s (w_tr w)) u) -> inv rg (emit w (Got s u)).
Proof.
  intros V Hs F S. destruct (e_val (w_ent w e)) as [c|] eqn:E.
  - assert (inv rg (setVal (emit w (Got s u)) e c)) as W.
    { apply inv_setVal; auto. unfold entV in S. now rewrite E in S. pose proof (i_typ _ _ V e) as T. unfold goodTypes in T. rewrite E in T. exact T. }
    assert (EQ : forall e', w_ent (setVal (emit w (Got s u)) e c) e' = w_ent (emit w (Got s u)) e').
    { intros e'. cbn. unfold updf. destruct (Nat.eqb_spec e' e) as [->|]; auto. rewrite <- E. destruct (w_ent w e); auto. }
    destruct W. constructor; auto.
    + intros. rewrite <- EQ. auto.
    + intros. rewrite <- EQ. auto.
    + intros. rewrite <- EQ. apply i_occ. auto.
  - (* no value: nothing to store; the entry is untouched *)
    unfold entV in S. rewrite E in S.
    pose proof (inv_find rg w V) as FD. destruct (findKey_in _ _ _ F) as [k0 [I0 K0]].
    assert (HK : forall k e', In (k, e') (w_map w) -> same_key s k = true -> e' = e).
    { intros k e' I K. rewrite same_key_sym in K. pose proof (FD s k e' Hs I K). congruence. }
    destruct V. constructor; cbn; auto.
    + intros k v I. apply in_app_iff in I as [I|[I|[]]]; eauto. inversion I; subst; auto.
    + intros k I. apply in_app_iff in I as [I|[I|[]]]; eauto. inversion I.
    + intros k e' I. rewrite current_got. destruct (same_key s k) eqn:SK; [|eauto].
      rewrite (HK k e' I SK). unfold entV. rewrite E. rewrite (current_cong k s); eauto. now rewrite same_key_sym.
    + intros s' Hs' F'. rewrite current_got. destruct (same_key s s') eqn:SK; auto.
      assert (same_key k0 s' = true) by (apply (same_key_trans k0 s s'); eauto). rewrite (findKey_none _ _ F' _ _ I0) in H. discriminate.
Qed.

(** What one delivered update does: the invariant, and who is notified. *)
Definition hasOnch (w : world) (l : nat) : bool := l_onch (w_lk w l).
Lemma semi_setVal w e c x : semi w (setVal (emit w x) e c).
Proof.
  constructor; auto. intros e'. cbn. unfold updf. destruct (Nat.eqb_spec e' e) as [->|]; auto.
Qed.
Lemma entUpdate_spec rg w e s u w' : inv rg w -> okState s -> findKey s (w_map w) = Some e ->
  entUpdate (emit w (Got s u)) e u = Some w' ->
  inv rg w' /\ semi w w' /\
  exists n : bool,
    (~ blank (current s (w_tr w)) u -> n = changed (current s (w_tr w)) (valueAfter (current s (w_tr w)) u) \/
        (n = false /\ valueAfter (current s (w_tr w)) u = current s (w_tr w))) /\
    (exists d, w_tr w' = w_tr w ++ Got s u :: d /\ Forall soft d) /\
    (forall l, l_onch (w_lk w l) = false ->
      exists d, w_tr w' = w_tr w ++ Got s u :: d /\
        pubs l d = (if n && lkActive (w_lk w l) then occ (e_lk (w_ent w e)) l else 0)%nat).
Proof.
  intros V Hs F H. unfold entUpdate in H. unfold getE in H.
  rewrite (live_map w (emit w (Got s u))) in H by reflexivity.
  rewrite (findKey_live _ _ _ F) in H. cbn [obind] in H.
  change (w_ent (emit w (Got s u)) e) with (w_ent w e) in H.
  change (w_cyc (emit w (Got s u))) with (w_cyc w) in H.
  pose proof (inv_current rg w s e V Hs F) as S. pose proof (i_typ _ _ V e) as T.
  set (cur := current s (w_tr w)) in *.
  (* common ending *)
  assert (FIN : forall c (n : bool), vsim (cv_v c) (valueAfter cur u) -> goodCv c ->
     (if n then notifyAll (e_lk (w_ent w e)) (setVal (emit w (Got s u)) e c) else Some (setVal (emit w (Got s u)) e c)) = Some w' ->
     inv rg w' /\ semi w w' /\ (exists d, w_tr w' = w_tr w ++ Got s u :: d /\ Forall soft d) /\
     (forall l, l_onch (w_lk w l) = false ->
      exists d, w_tr w' = w_tr w ++ Got s u :: d /\
        pubs l d = (if n && lkActive (w_lk w l) then occ (e_lk (w_ent w e)) l else 0)%nat)).
  { intros c n SC G HN. assert (V1 : inv rg (setVal (emit w (Got s u)) e c)) by (apply inv_setVal; auto).
    destruct n.
    - pose proof (quiet_notify _ _ _ HN) as Q. split; [eapply inv_quiet; eauto|].
      split; [eapply semi_trans; [apply semi_setVal|apply quiet_semi; eauto]|].
      split.
      + destruct Q as [_ _ _ _ _ _ [d [D1 D2]]]. exists d. rewrite D1. cbn. rewrite <- app_assoc. auto.
      + intros l P. change (l_onch (w_lk (setVal (emit w (Got s u)) e c) l) = false) in P.
        destruct (notify_pubs l _ _ _ P HN) as [d [D1 [D2 D3]]]. exists d. rewrite D1, D3. cbn.
        rewrite <- app_assoc. auto.
    - inversion HN; subst. split; auto. split; [apply semi_setVal|]. split; [exists []; auto|]. intros l _. exists []. auto. }
  destruct u as [v|].
  - ob H. pose proof (applyUpd (w_ent w e) cur v o T S E) as A. destruct o as [c|].
    + ob H. destruct (A _ _ E0) as [A1 [A2 A3]].
      destruct (FIN (fst p) (snd p) A1 A2) as [B1 [B2 [B3 B4]]]. { exact H. }
      split; auto. split; auto. exists (snd p). auto.
    + destruct A as [A1 A2]. inversion H; subst.
      split. { apply (inv_got_only rg w s (UVal v) e); auto. fold cur. rewrite A1. exact S. }
      split; [constructor; auto|]. exists false. split; [right; auto|]. split; [exists []; auto|].
      intros l _. exists []. auto.
  - destruct (e_val (w_ent w e)) as [c|] eqn:EV.
    + assert (CE : entV (w_ent w e) = cv_v c) by (unfold entV; now rewrite EV).
      assert (GC : goodCv c) by (unfold goodTypes in T; rewrite EV in T; exact T).
      assert (KT : valueAfter cur UUnk = VUnk (cvType c)). { cbn. rewrite <- (vsim_type _ _ S), CE. reflexivity. }
      destruct (FIN (fst (cvSetUnknown c (w_cyc w))) (snd (cvSetUnknown c (w_cyc w)))) as [B1 [B2 [B3 B4]]].
      { rewrite KT. unfold cvSetUnknown. destruct (Z.eqb_spec (cvType c) UNKNOWN_TYPE) as [E0|]; cbn; [|now left].
        rewrite E0. unfold cvType in E0. destruct (cv_v c); cbn in E0; try discriminate. left. congruence. }
      { unfold cvSetUnknown. destruct (cvType c =? UNKNOWN_TYPE); auto. }
      { exact H. }
      split; auto. split; auto. exists (snd (cvSetUnknown c (w_cyc w))). split; auto. intros _. left.
      rewrite KT, changed_to_unk, <- (vsim_known _ _ S), CE. unfold cvSetUnknown.
      destruct (Z.eqb_spec (cvType c) UNKNOWN_TYPE) as [E0|]; cbn; auto.
      unfold cvType in E0. destruct (cv_v c); cbn in *; auto; discriminate.
    + inversion H; subst.
      assert (CU : cur = VUnk UNKNOWN_TYPE). { assert (EQ : entV (w_ent w e) = VUnk UNKNOWN_TYPE) by (unfold entV; now rewrite EV). rewrite EQ in S. symmetry. now apply vsim_unk. }
      split. { apply (inv_got_only rg w s UUnk e); auto. fold cur. rewrite CU in *. exact S. }
      split; [constructor; auto|]. exists false. split; [left; rewrite CU; auto|]. split; [exists []; auto|].
      intros l _. exists []. auto.
Qed.
