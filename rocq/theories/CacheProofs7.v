(** Timestamps along runs. *)
From Verif Require Import ValueModel RealModel RealProofs CacheModel CacheSpec OrderProps CacheProofs CacheProofs2 CacheFresh CacheProofs3 CacheProofs4 CacheProofs5 CacheProofs6.
Open Scope Z_scope.

Lemma FR_publish w l : FR w -> FR (publish w l). Proof. apply FR_quiet, quiet_publish. Qed.
Lemma opActivate_FR w l ans w' : INV w -> opActivate w l ans = Some w' -> FR w ->
  FR w' /\ (l_cnt (w_lk w l) = 0%nat -> forall s, l_env (w_lk w l) = Some s -> gotSince s (w_tr w) = false -> exists d, w_tr w' = w_tr w ++ Ask s :: d).
Proof.
  intros V H F. pose proof H as H'. unfold opActivate in H. destruct (Nat.eqb_spec (l_cnt (w_lk w l)) 0) as [C0|C0].
  - rewrite C0 in H. ob H. destruct (handleActivate_spec w l ans w0 V C0 E) as (_ & _ & _ & _ & _ & _ & FS).
    destruct (FS F) as [F0 AS]. destruct (l_onch (w_lk w l)).
    + ob H. ob H. inversion H; subst; clear H. apply quietT_updI' in E0.
      assert (FP : FR (fst p)) by (eapply FR_quiet; eauto; now apply FR_setLk).
      split. { destruct b; auto. now apply FR_publish. }
      intros _ s Es G. destruct (AS s Es G) as [d D]. destruct (q_tr _ _ _ E0) as [d' [D' _]]. cbn in D'.
      destruct b; [unfold publish; destruct lkActive|]; cbn; rewrite D', D, <- ?app_assoc; cbn; eauto.
    + inversion H; subst. auto.
  - inversion H; subst. split; [now apply FR_setLk|]. congruence.
Qed.
Lemma opDeactivate_FR w l w' : INV w -> opDeactivate w l = Some w' -> FR w -> FR w'.
Proof.
  intros [V R] H F. unfold opDeactivate in H. destruct (l_cnt (w_lk w l)) as [|n]; [discriminate|].
  destruct (Nat.eqb n 0); [|inversion H; subst; now apply FR_setLk].
  ob H. inversion H; subst; clear H.
  assert (F0 : FR w0).
  { destruct (l_known (w_lk w l)); [|inversion E; subst; now apply FR_setLk].
    assert (VA : inv (regs (setLkCnt w l n)) (setLkCnt w l n)) by (apply inv_regs_setLk; auto).
    apply (unreg_spec _ _ _ VA E). now apply FR_setLk. }
  set (w3 := if l_const _ then _ else _).
  assert (F3 : FR w3). { unfold w3. destruct (l_const (w_lk w0 l)); auto. now apply FR_setLk. }
  clearbody w3. destruct (l_onch (w_lk w0 l)); auto. eapply FR_quiet; [apply quiet_dropThr|now apply FR_setLk].
Qed.
Lemma handleChange_FR w l ans w' : (lkActive (w_lk w l) = true -> pre w l) -> handleChange w l ans = Some w' -> FR w -> FR w'.
Proof.
  intros P H F. unfold handleChange in H. destruct (lkActive _) eqn:A; [|inversion H; subst; auto].
  ob H. destruct (hci_spec _ _ _ _ (P eq_refl) E) as [_ FS]. specialize (FS F). destruct (l_onch (w_lk w l)).
  - ob H. inversion H; subst. apply quietT_updI' in E0. assert (FR (fst p0)) by (eapply FR_quiet; eauto).
    destruct (snd p0); auto. now apply FR_publish.
  - inversion H; subst. destruct (snd p); auto. now apply FR_publish.
Qed.
Theorem step_FR o w w' : INV w -> okOp o -> step o w = Some w' -> FR w -> FR w'.
Proof.
  intros V OK H F. destruct o as [m ans|m|m s ans|m v|s u| |s]; cbn [step okOp] in *.
  - eapply opActivate_FR; eauto.
  - eapply opDeactivate_FR; eauto.
  - destruct (l_const (w_lk w m)) eqn:K; [discriminate|]. eapply handleChange_FR; eauto; [|now apply FR_setLk].
    intros A. apply rest_pre; auto; [|congruence]. unfold lkActive, setLkEnv, setLk in A. cbn [w_lk] in A. rewrite updf_same in A. now apply Nat.ltb_lt in A.
  - destruct (l_tolconst (w_lk w m)); [discriminate|].
    destruct (_ && _); [|inversion H; subst; now apply FR_setLk].
    eapply handleChange_FR; eauto; [|now apply FR_setLk]. intros A. apply rest_pre0. apply INV_setLk; auto. now apply Nat.ltb_lt in A.
  - destruct V as [V R]. destruct (ensureE_spec (regs w) w s V OK) as [P1 [P2 [P3 [P4 [P5 [P6 P7]]]]]].
    eapply FR_entUpdate; eauto. eapply FR_ensureE; eauto.
  - inversion H; subst. constructor; cbn; [lia|]. intros k e c I E. destruct (fr_ts _ F k e c I E) as [A B]. split; [lia|]. lia.
  - destruct (findKey s (w_map w)); [destruct (e_lk _)|]; inversion H; subst; auto.
    apply (FR_same w _ [Del s]); auto. { cbn. intros [|[]]; discriminate. }
    cbn. intros k e c I E. apply filter_In in I as [I _]. auto.
Qed.
Theorem run_FR ps os w : (forall l, okSpec (ps l)) -> Forall okOp os -> run os (init ps) = Some w -> FR w.
Proof.
  intros OK. revert w. induction os as [|o os IH] using rev_ind; intros w F H.
  - inversion H; subst. constructor; cbn; auto. tauto.
  - rewrite run_app in H. ob H. cbn in H. ob H. inversion H; subst. apply Forall_app in F as [F1 F2]. inversion F2; subst.
    eapply step_FR; eauto. eapply (run_INV ps os); eauto.
Qed.
