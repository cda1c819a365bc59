(** A node whose queue status says "pending" but which sits in no queue is never
    looked at again, whatever happens afterwards. *)
From Verif Require Export ExecTerm.

Section Limbo.
Context {W : Type} (P : plan W) (env : nat -> W -> W).
Implicit Types (st : est W).
Variables (n : nat) (s : nstate).

Record limbo st : Prop := {
  lb_qs : qs st n = QPending \/ qs st n = QPendingCheck;
  lb_pend : ~ In n (e_pend st);
  lb_chg : ~ In n (e_chg st);
  lb_state : state st n = s;
  lb_wait : forall r, ~ In n (waiters st r) }.

Lemma limbo_notify st x : limbo st -> limbo (notify st x).
Proof.
  intros [A B C D E]. assert (H : qs (notify st x) n = QPending \/ qs (notify st x) n = QPendingCheck).
  { unfold notify. destruct (qs st x) eqn:Ex; cbn; try exact A;
      match goal with |- context[qs ?a n] => change (qs a n) with (d_qs (e_nodes a n)) end;
      cbn; unfold upd; destruct (Nat.eqb_spec n x) as [->|Hne]; cbn; try (rewrite Ex in A; destruct A; congruence); auto. }
  constructor; [exact H| | | |].
  - now rewrite notify_pend.
  - now rewrite notify_chg.
  - now rewrite (qt_state _ _ (quiet_notify st x)).
  - intro r. unfold waiters. rewrite notify_res. apply E.
Qed.
Lemma limbo_frame st st' : qs st' n = qs st n -> (In n (e_pend st') -> In n (e_pend st)) -> (In n (e_chg st') -> In n (e_chg st)) ->
  state st' n = state st n -> (forall r, In n (waiters st' r) -> In n (waiters st r)) -> limbo st -> limbo st'.
Proof. intros H1 H2 H3 H4 H5 []. constructor; try congruence; auto. intros r Hr. exact (lb_wait0 r (H5 r Hr)). Qed.

Lemma limbo_release st r x : limbo st -> limbo (release st r x).
Proof.
  intros L. destruct (release_queues st r x) as (_ & E2 & E3).
  apply (limbo_frame st); [|now rewrite E2|now rewrite E3|apply (qt_state _ _ (quiet_release st r x))| |exact L].
  - unfold release. destruct (r_holder _); [|reflexivity]. destruct (Nat.eqb _ _); [|reflexivity].
    match goal with |- qs (fold_left _ ?l ?s0) n = _ => destruct (fold_notifyRes_qs l s0 n) as (_ & _ & _ & _ & [H|[H _]] & _) end;
      [exact H|]. exfalso. exact (lb_wait _ L r H).
  - intros r'. destruct (release_raw st r x) as (_ & _ & _ & H & _). rewrite H. auto.
Qed.
Lemma limbo_inert st st' : inert st st' -> limbo st -> limbo st'.
Proof.
  intros [] L. apply (limbo_frame st); auto; unfold state, waiters; rewrite ?in_pend, ?in_chg, ?in_core, ?in_res; auto.
Qed.
Lemma limbo_setQs st x q : x <> n -> limbo st -> limbo (setQs st x q).
Proof.
  intros Hx. apply limbo_frame; auto.
  - rewrite qs_setQs. destruct (Nat.eqb_spec n x); congruence.
  - apply (qt_state _ _ (quiet_setQs st x q)).
Qed.
Lemma limbo_setCore st x k : x <> n -> limbo st -> limbo (setCore st x k).
Proof.
  intros Hx. apply limbo_frame; auto; [apply qs_setCore|].
  unfold state. rewrite core_setCore. destruct (Nat.eqb_spec n x); congruence.
Qed.
Lemma limbo_queues st c p g f : (In n p -> In n (e_pend st)) -> (In n g -> In n (e_chg st)) -> limbo st -> limbo (set_queues st c p g f).
Proof. intros. apply (limbo_frame st); auto. Qed.
Lemma limbo_set_res st f : (forall r, In n (r_waiters (f r)) -> In n (waiters st r)) -> limbo st -> limbo (set_res st f).
Proof. intros. apply (limbo_frame st); auto. Qed.
Lemma limbo_addWaiting st r x : x <> n -> limbo st -> limbo (addWaiting st r x).
Proof.
  intros Hx L. unfold addWaiting. destruct (memb _ _); [exact L|]. apply limbo_set_res; [|exact L].
  intro r'. unfold updr, waiters. destruct (res_eqb r' r) eqn:Er; [|auto]. apply res_eqb_eq in Er; subst r'. cbn.
  rewrite in_snoc. intuition congruence.
Qed.
Lemma limbo_removeWaiting st r x : limbo st -> limbo (removeWaiting st r x).
Proof.
  intros L. apply limbo_set_res; [|exact L]. intro r'. unfold updr, waiters.
  destruct (res_eqb r' r) eqn:Er; [|auto]. apply res_eqb_eq in Er; subst r'. cbn. apply rem1_In.
Qed.
Lemma limbo_fail st e : limbo st -> limbo (fail st e).
Proof. apply limbo_frame; auto. Qed.
Lemma limbo_acquire st r x : x <> n -> limbo st -> limbo (fst (acquire st r x)).
Proof.
  intros Hx L. unfold acquire. destruct (r_holder _); cbn; [now apply limbo_addWaiting|].
  apply limbo_removeWaiting, limbo_set_res; [|exact L]. intro r'. unfold updr, waiters.
  destruct (res_eqb r' r) eqn:Er; [|auto]. apply res_eqb_eq in Er; subst r'. auto.
Qed.
Lemma limbo_acquireAll x rs : x <> n -> forall st, limbo st -> limbo (fst (acquireAll P st x rs)).
Proof.
  intro Hx. induction rs as [|r rs IH]; cbn; intros st L; [exact L|].
  pose proof (limbo_acquire st r x Hx L) as L1. destruct (acquire st r x) as [s1 ok]; cbn [fst] in L1.
  destruct ok; [now apply IH|]. cbn. destruct (r_holder _); [destruct (memb _ _)|]; auto using limbo_fail.
Qed.
Lemma limbo_backOff x rs : x <> n -> forall st, limbo st -> limbo (backOff st x rs).
Proof.
  intro Hx. induction rs as [|r rs IH]; cbn; intros st L; [exact L|]. apply IH, limbo_addWaiting; [exact Hx|].
  destruct (r_holder _); [|exact L]. destruct (Nat.eqb _ _); auto using limbo_release.
Qed.
Lemma limbo_tryAcquire st x : x <> n -> limbo st -> limbo (fst (tryAcquire P st x)).
Proof.
  intros Hx L. unfold tryAcquire. pose proof (limbo_acquireAll x (mutexes P x) Hx st L) as L1.
  destruct (acquireAll P st x (mutexes P x)) as [s1 ok]; cbn [fst] in L1.
  destruct (isAssignment P x); [destruct ok|].
  - pose proof (limbo_acquire s1 (RVar (p_var P x)) x Hx L1) as L2. destruct (acquire s1 _ x) as [s2 ok2]; cbn [fst] in *.
    destruct ok2; auto using limbo_backOff.
  - cbn. apply limbo_backOff, limbo_addWaiting; auto.
  - destruct ok; cbn; auto using limbo_backOff.
Qed.
Lemma limbo_removePending st x : x <> n -> limbo st -> limbo (removePending P st x).
Proof.
  intros Hx L. unfold removePending, releaseReservations.
  assert (F : forall l s, limbo s -> limbo (fold_left (fun st r => removeWaiting st r x) l s)).
  { induction l as [|y l IH]; cbn; intros s0 L0; [exact L0|]. apply IH. now apply limbo_removeWaiting. }
  apply F. destruct (isAssignment P x); [apply limbo_removeWaiting|]; (apply limbo_setQs; [exact Hx|]); apply limbo_queues; auto; apply rem1_In.
Qed.
Lemma limbo_addStateChange st x : x <> n -> limbo st -> limbo (addStateChange st x).
Proof.
  intros Hx L. unfold addStateChange. destruct (qs st x); try now apply limbo_fail.
  apply limbo_queues; [auto| |now apply limbo_setQs]. intro Hi. apply in_snoc in Hi as [Hi|Hi]; [exact Hi|congruence].
Qed.
Lemma limbo_getDestNode st x : x <> n -> limbo st -> limbo (fst (getDestNode P st x)).
Proof. intros Hx L. unfold getDestNode. destruct (coreGetDest _ _ _ _). now apply limbo_setCore. Qed.

Lemma limbo_resolve st : Inv P st -> limbo st -> limbo (resolve P st).
Proof.
  intros HI L. apply (resolve_J P limbo); auto.
  - intros s0 x _ L0 Hx. assert (Hne : x <> n) by (intros ->; exact (lb_pend _ L0 Hx)).
    unfold checkEligible. pose proof (limbo_getDestNode s0 x Hne L0) as L1. destruct (getDestNode P s0 x) as [s1 go]; cbn [fst] in L1.
    destruct (qs s0 x); auto using limbo_fail; destruct go; cbn [negb]; try destruct (isExecuting (next s1 x)); cbn [negb fst]; cbn zeta;
      auto 8 using limbo_fail, limbo_setQs, limbo_addStateChange, limbo_removePending.
  - intros s0 x _ L0 Hx. assert (Hne : x <> n) by (intros ->; exact (lb_pend _ L0 Hx)).
    unfold tryOne. pose proof (limbo_tryAcquire s0 x Hne L0) as L1. destruct (tryAcquire P s0 x) as [s1 ok]; cbn [fst] in L1.
    destruct ok; auto using limbo_setQs, limbo_addStateChange, limbo_removePending.
Qed.

Lemma limbo_act st a : Inv P st -> limbo st -> limbo (act env P st a).
Proof.
  intros HI L. destruct (isLoop a) eqn:Ha.
  - destruct a; try discriminate Ha; cbn [act].
    + unfold checkOne. destruct (e_cand st) as [|x cs] eqn:Ec; [exact L|].
      assert (Hne : x <> n).
      { intros ->. assert (qs st n = QCheck) by (apply (q_cand _ _ (proj1 HI)); rewrite Ec; now left). destruct (lb_qs _ L); congruence. }
      set (st0 := setQs _ _ _).
      assert (L0 : limbo st0) by (apply limbo_setQs; [exact Hne|]; apply limbo_queues; auto).
      pose proof (limbo_getDestNode st0 x Hne L0) as L1. destruct (getDestNode P st0 x) as [s1 go]; cbn [fst] in L1.
      destruct go; [|exact L1]. destruct (_ && _); [|now apply limbo_addStateChange].
      unfold addPending. apply limbo_queues; [|auto|now apply limbo_setQs].
      intro Hi. apply insertPrio_In in Hi as [Hi|Hi]; [congruence|exact Hi].
    + now apply limbo_resolve.
    + destruct (e_chg st) as [|x cs] eqn:Ec; [unfold transitionOne; now rewrite Ec|].
      assert (Hne : x <> n) by (intros ->; apply (lb_chg _ L); rewrite Ec; now left).
      apply (transitionOne_J P limbo x) with (cs := cs); auto using limbo_notify, limbo_release, limbo_fail, limbo_setCore.
      * intros s0 s1 Hi _. now apply limbo_inert.
      * intros s0 L0. unfold addFinished. destruct (qs s0 x); auto using limbo_fail; apply limbo_queues; auto using limbo_setQs.
      * intros s0 cs0 E0 L0. apply limbo_setQs; [exact Hne|]. apply limbo_queues; auto. rewrite E0. now right.
  - apply (act_other_J P env limbo); auto using limbo_notify.
    + intros s0 s1 Hi _. now apply limbo_inert.
    + intros s0 L0. now apply limbo_queues.
Qed.

Theorem limbo_forever l : forall st, Inv P st -> limbo st -> limbo (run env P l st).
Proof. induction l as [|a l IH]; cbn; intros st HI L; [exact L|]. apply IH; [now apply act_Inv|now apply limbo_act]. Qed.
End Limbo.
