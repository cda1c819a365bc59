(** C47: which deliveries an operation on the cache can make. *)
From Verif Require Import ValueModel RealModel CacheModel CacheSpec OrderProps CacheProofs CacheProofs2 CacheProofs3.
Open Scope Z_scope.

(** Only states in P receive values between w and w', nothing is deleted; [T] also: no lookup
    changes its state. *)
Definition only (P : state -> Prop) (v : ev) : Prop := match v with Got k _ => P k | Del _ => False | _ => True end.
Definition touch (P : state -> Prop) (w w' : world) : Prop := exists d, w_tr w' = w_tr w ++ d /\ Forall (only P) d.
Record T (P : state -> Prop) (w w' : world) : Prop := {
  t_touch : touch P w w'; t_st : forall l, l_st (w_lk w' l) = l_st (w_lk w l) }.
Lemma touch_refl P w w' : w_tr w' = w_tr w -> touch P w w'.
Proof. intros E. exists []. rewrite app_nil_r. auto. Qed.
Lemma touch_trans P a b c : touch P a b -> touch P b c -> touch P a c.
Proof. intros [d [A B]] [d' [C D]]. exists (d ++ d'). rewrite C, A, app_assoc. split; auto. apply Forall_app; auto. Qed.
Lemma T_refl P w : T P w w. Proof. constructor; auto. now apply touch_refl. Qed.
Lemma T_trans P a b c : T P a b -> T P b c -> T P a c.
Proof. intros [A B] [C D]. constructor; [eapply touch_trans; eauto|]. intros. now rewrite D. Qed.
Lemma T_quiet P w w' : quiet w w' -> T P w w'.
Proof.
  intros Q. constructor.
  - destruct (q_tr _ _ _ Q) as [d [A B]]. exists d. split; auto. eapply Forall_impl; [|exact B]. intros []; cbn; tauto.
  - intros l. apply core_st, (q_core _ _ _ Q).
Qed.
Lemma T_same P w w' : w_tr w' = w_tr w -> (forall l, l_st (w_lk w' l) = l_st (w_lk w l)) -> T P w w'.
Proof. intros A B. constructor; auto. now apply touch_refl. Qed.
Lemma T_emit (P : state -> Prop) w v : only P v -> T P w (emit w v).
Proof. intros H. constructor; auto. exists [v]. auto. Qed.
Lemma touch_current P w w' s : touch P w w' -> (forall k, P k -> same_key k s = false) -> current s (w_tr w') = current s (w_tr w).
Proof.
  intros [d [-> F]] H. unfold current. f_equal. rewrite delivered_app. generalize (delivered s (w_tr w)).
  induction F as [|v d A F IH]; intros acc; cbn; auto. destruct v; cbn in A; try apply IH; try tauto. rewrite (H _ A). apply IH.
Qed.

Ltac lkst := let m := fresh in intros m; cbn; unfold updf; try match goal with |- context [Nat.eqb m ?x] => destruct (Nat.eqb_spec m x); [subst|] end; cbn; reflexivity.
Lemma T_entUpdate (P : state -> Prop) w e u w' : entUpdate w e u = Some w' -> T P w w'.
Proof.
  unfold entUpdate. intros H. ob H. destruct u as [v|].
  - ob H. destruct o as [c|]; [|inversion H; apply T_refl]. ob H.
    assert (A : T P w (setVal w e (fst p))) by (apply T_same; auto). destruct (snd p).
    + eapply T_trans; [exact A|]. eapply T_quiet, quiet_notify; eauto.
    + inversion H; subst; exact A.
  - destruct (e_val e0) as [c|]; [|inversion H; apply T_refl].
    assert (A : T P w (setVal w e (fst (cvSetUnknown c (w_cyc w))))) by (apply T_same; auto). cbn zeta in H. destruct (snd _).
    + eapply T_trans; [exact A|]. eapply T_quiet, quiet_notify; eauto.
    + inversion H; subst; exact A.
Qed.
Lemma T_answers (P : state -> Prop) e s us : (us <> [] -> P s) -> forall w w', answers w e s us = Some w' -> T P w w'.
Proof.
  intros Q. induction us as [|u us IH]; intros w w' H; cbn [answers] in H.
  - inversion H; apply T_refl.
  - ob H. assert (P s) by (apply Q; discriminate). eapply T_trans; [|apply IH; [auto|exact H]].
    eapply T_trans; [|eapply T_entUpdate; eauto]. apply T_emit. cbn. apply Q. discriminate.
Qed.
Lemma T_registerE (P : state -> Prop) w e st l ans w' : (ans <> [] -> P st) -> registerE w e st l ans = Some w' -> T P w w'.
Proof.
  intros Q H. unfold registerE in H. ob H.
  set (w1 := setEnt w e _) in H. assert (A : T P w w1) by (apply T_same; auto). clearbody w1.
  match type of H with (if ?b then _ else _) = _ => destruct b end; [|inversion H; subst; exact A].
  eapply T_trans; [exact A|]. eapply T_trans; [apply (T_emit P w1 (Ask st)); exact I|]. eapply T_answers; eauto.
Qed.
Lemma T_unregisterE (P : state -> Prop) w e st l w' : unregisterE w e st l = Some w' -> T P w w'.
Proof.
  unfold unregisterE. intros H. ob H. destruct (e_lk e0) as [|a r]. { inversion H; apply T_refl. }
  destruct (negb _). { inversion H; apply T_refl. }
  cbn zeta in H. match type of H with match ?l with _ => _ end = _ => destruct l end. { inversion H; subst. apply T_same; auto. }
  destruct (e_thr e0).
  - eapply T_trans; [|eapply T_quiet, quietT_quiet, quiet_updT; eauto]. apply T_same; auto.
  - inversion H; subst. apply T_same; auto.
Qed.
Lemma T_setReg P w l b : T P w (setLkReg w l b). Proof. apply T_same; auto. lkst. Qed.
Lemma T_ensureRegistered (P : state -> Prop) w l ans w' : (ans <> [] -> P (l_st (w_lk w l))) -> ensureRegistered w l ans = Some w' -> T P w w'.
Proof.
  intros Q H. unfold ensureRegistered in H. cbn zeta in H. destruct (l_reg _). { inversion H; apply T_refl. }
  do 2 ob H. inversion H; subst. eapply T_trans; [eapply T_registerE; eauto|apply T_setReg].
Qed.
Lemma T_unregister P w l w' : unregister w l = Some w' -> T P w w'.
Proof.
  unfold unregister. intros H. cbn zeta in H. destruct (l_reg _); [|inversion H; apply T_refl].
  do 2 ob H. inversion H; subst. eapply T_trans; [eapply T_unregisterE; eauto|apply T_setReg].
Qed.
Lemma T_dropThr P w l : T P w (dropThr w l).
Proof. unfold dropThr. destruct (l_thr _); [apply T_quiet, quiet_TC|apply T_refl]. Qed.
Lemma T_ent0 P w l en : T P w (setLkEnt w l (l_st (w_lk w l)) (l_known (w_lk w l)) en).
Proof. apply T_same; auto. lkst. Qed.
Lemma T_invalidateOld P w l w' : invalidateOld w l = Some w' -> T P w w'.
Proof.
  unfold invalidateOld. intros H. ob H. cbn zeta in H.
  assert (A : T P w (setLkEnt w0 l (l_st (w_lk w0 l)) (l_known (w_lk w0 l)) None)) by (eapply T_trans; [eapply T_unregister; eauto|apply T_ent0]).
  destruct (l_onch _); inversion H; subst; auto. eapply T_trans; [exact A|apply T_dropThr].
Qed.
Lemma T_ensureE P w s : T P w (fst (ensureE w s)).
Proof. unfold ensureE. destruct (findKey _ _); [apply T_refl|]. apply T_same; auto. Qed.
Lemma touch_setLk P w l y : touch P w (setLk w l y). Proof. now apply touch_refl. Qed.

(** Values asked for by an operation are for the state the lookup denotes afterwards. *)
Definition asks (w' : world) (l : nat) (ans : list upd) (k : state) : Prop :=
  ans <> [] /\ k = l_st (w_lk w' l) /\ l_reg (w_lk w' l) = true.
Definition keeps (w w' : world) : Prop := forall m, l_st (w_lk w' m) = l_st (w_lk w m) /\ l_reg (w_lk w' m) = l_reg (w_lk w m).
Lemma keeps_quiet w w' : quiet w w' -> keeps w w'.
Proof. intros Q m. pose proof (q_core _ _ _ Q m) as C. split; [now apply core_st|now apply core_reg]. Qed.
Lemma keeps_trans a b c : keeps a b -> keeps b c -> keeps a c.
Proof. intros A B m. destruct (A m), (B m). split; congruence. Qed.
Lemma keeps_refl a : keeps a a. Proof. intros m. auto. Qed.
Lemma touch_impl (P Q : state -> Prop) w w' : (forall k, P k -> Q k) -> touch P w w' -> touch Q w w'.
Proof. intros H [d [A B]]. exists d. split; auto. eapply Forall_impl; [|exact B]. intros []; cbn; auto. Qed.
Lemma asks_reg w l ans w' : ensureRegistered w l ans = Some w' -> touch (asks w' l ans) w w'.
Proof.
  intros H. pose proof (T_ensureRegistered (fun k => ans <> [] /\ k = l_st (w_lk w l)) w l ans w' (fun q => conj q eq_refl) H) as [A B].
  assert (C : l_reg (w_lk w' l) = true).
  { unfold ensureRegistered in H. cbn zeta in H. destruct (l_reg (w_lk w l)) eqn:R; [now inversion H; subst|]. do 2 ob H. inversion H. cbn. now rewrite updf_same. }
  eapply touch_impl; [|exact A]. unfold asks. rewrite B, C. tauto.
Qed.
Lemma touch_handleActivate w l ans w' : handleActivate w l ans = Some w' -> touch (asks w' l ans) w w'.
Proof.
  unfold handleActivate. cbn zeta. intros H.
  match type of H with match l_ent (w_lk ?w2 l) with _ => _ end = _ => assert (A : w_tr w2 = w_tr w) end.
  { destruct (l_const _); cbn [l_ent]; [|destruct (l_env _)]; match goal with |- w_tr (match ?x with _ => _ end) = _ => destruct x end; auto;
      destruct (l_known _); auto; cbn; unfold ensureE; destruct (findKey _ _); auto. }
  destruct (l_ent _); [|inversion H; subst; now apply touch_refl].
  apply asks_reg in H as [d [B C]]. exists d. now rewrite <- A.
Qed.
Lemma asks_keeps w0 w w' l ans : keeps w w' -> touch (fun _ => False) w w' -> touch (asks w l ans) w0 w -> touch (asks w' l ans) w0 w'.
Proof.
  intros K A B. eapply touch_trans; [|eapply touch_impl; [|exact A]; intros ? []]. eapply touch_impl; [|exact B].
  unfold asks. destruct (K l) as [-> ->]. tauto.
Qed.
Lemma touch_opActivate w l ans w' : opActivate w l ans = Some w' -> touch (asks w' l ans) w w'.
Proof.
  unfold opActivate. cbn zeta. intros H. destruct (Nat.eqb _ _); [|inversion H; apply touch_setLk].
  ob H. apply touch_handleActivate in E. destruct (l_onch _).
  - do 2 ob H. inversion H; subst; clear H.
    assert (Q : quiet (setLkTola w0 l true) (if b then publish (fst p) l else fst p)).
    { eapply quiet_trans; [eapply quietT_quiet, quiet_updI; eauto|destruct b; [apply quiet_publish|apply quiet_refl]]. }
    eapply asks_keeps; [| |exact E].
    + eapply keeps_trans; [|apply keeps_quiet; exact Q]. intros m. cbn. unfold updf. destruct (Nat.eqb_spec m l); subst; auto.
    + eapply touch_trans; [|apply t_touch, T_quiet; exact Q]. apply touch_setLk.
  - inversion H; subst. exact E.
Qed.
Lemma touch_opDeactivate P w l w' : opDeactivate w l = Some w' -> touch P w w'.
Proof.
  unfold opDeactivate. intros H. destruct (l_cnt _); [discriminate|]. cbn zeta in H. destruct (Nat.eqb _ _); [|inversion H; apply touch_setLk].
  ob H. assert (A : touch P w w0). { destruct (l_known _); [|inversion E; apply touch_setLk]. eapply touch_trans; [|eapply t_touch, T_unregister; eauto]. apply touch_setLk. }
  eapply touch_trans; [exact A|]. inversion H; subst; clear H. destruct (l_onch _); destruct (l_const _);
    try (eapply touch_trans; [|apply t_touch, T_dropThr]); apply touch_refl; auto.
Qed.
Lemma touch_hci w l ans p : handleChangeInternal w l ans = Some p -> touch (asks (fst p) l ans) w (fst p).
Proof.
  unfold handleChangeInternal. cbn zeta. intros H. destruct (l_env _) as [s|].
  - ob H. ob H. inversion H; subst; clear H. cbn [fst].
    assert (A : touch (asks w1 l ans) w w0).
    { match type of E with (if ?b then _ else _) = _ => destruct b end; [|inversion E; apply touch_setLk].
      eapply touch_trans; [|eapply t_touch, T_invalidateOld; eauto]. apply touch_setLk. }
    eapply touch_trans; [exact A|]. apply asks_reg in E0 as [d [B C]]. exists d. split; auto. rewrite B. cbn.
    f_equal. unfold ensureE. destruct (findKey _ _); auto.
  - ob H. inversion H; subst; clear H. cbn [fst].
    match type of E with (if ?b then _ else _) = _ => destruct b end; [|inversion E; apply touch_setLk].
    eapply touch_trans; [|eapply t_touch, T_invalidateOld; eauto]. apply touch_setLk.
Qed.
Lemma touch_handleChange w l ans w' : handleChange w l ans = Some w' -> touch (asks w' l ans) w w'.
Proof.
  unfold handleChange. intros H. destruct (lkActive _); [|inversion H; now apply touch_refl].
  ob H. apply touch_hci in E. destruct (l_onch _).
  - ob H. inversion H; subst; clear H.
    assert (Q : quiet (fst p) (if snd p0 then publish (fst p0) l else fst p0)).
    { eapply quiet_trans; [eapply quietT_quiet, quiet_updI; eauto|destruct (snd p0); [apply quiet_publish|apply quiet_refl]]. }
    eapply asks_keeps; [apply keeps_quiet; exact Q|apply t_touch, T_quiet; exact Q|exact E].
  - inversion H; subst; clear H.
    assert (Q : quiet (fst p) (if snd p then publish (fst p) l else fst p)) by (destruct (snd p); [apply quiet_publish|apply quiet_refl]).
    eapply asks_keeps; [apply keeps_quiet; exact Q|apply t_touch, T_quiet; exact Q|exact E].
Qed.

(** What each operation delivers. *)
Definition may (o : op) (w' : world) (k : state) : Prop :=
  match o with
  | OAct l ans => asks w' l ans k
  | OEnv l _ ans => asks w' l ans k
  | OUpd s _ => k = s
  | _ => False
  end.
Lemma step_touch o w w' : step o w = Some w' -> (forall s, o <> ODel s) -> touch (may o w') w w'.
Proof.
  intros H ND. destruct o; cbn [step] in H; cbn [may].
  - apply touch_opActivate in H. exact H.
  - eapply touch_opDeactivate; eauto.
  - destruct (l_const _); [discriminate|]. apply touch_handleChange in H. eapply touch_trans; [|exact H]. apply touch_setLk.
  - destruct (l_tolconst _); [discriminate|]. destruct (_ && _).
    + apply touch_handleChange in H. eapply touch_trans; [|eapply touch_impl; [|exact H]]. apply touch_setLk. intros k [X _]. congruence.
    + inversion H; subst. now apply touch_refl.
  - apply (T_entUpdate (fun k => k = s)) in H. eapply touch_trans; [|apply H]. eapply touch_trans; [apply t_touch, T_ensureE|apply t_touch, T_emit]. reflexivity.
  - inversion H; subst. exists [Cyc]. split; [reflexivity|]. constructor; [exact I|constructor].
  - now destruct (ND s).
Qed.
