(** C29, C42, C43, C45: the application layer in background mode; C44: opportunistic mode; C46. *)
From Verif Require Import AppModel AppSpec AppProofs AppProofs2 AppProofs3 AppProofs4.

Section Props.
  Context {X : Type}.
  Variable (apply : eff -> X -> X) (execStep clean : X -> X) (needsStep allFinished : X -> bool).
  Notation step := (step apply execStep clean needsStep allFinished).
  Notation runs := (runs apply execStep clean needsStep allFinished).
  Notation xruns := (xruns apply execStep clean needsStep allFinished true).

  (** * C29 *)
  (** What reaches the executive is, in order and exactly once each, what was posted first; the rest
      is still waiting. *)
  Theorem C29_in_order x h y : runs true x h y ->
    exists done rest, posts (a_tr y) = done ++ rest /\ outs (a_tr y) = flat_map want done.
  Proof. intros H. destruct (runs_ordered _ _ _ _ _ _ _ _ H) as (d & r & A & B & _). eauto. Qed.
  (** Nothing is left once the queue is empty and the worker is not inside the executive. *)
  Theorem C29_complete x h y : runs true x h y -> a_q y = [] -> inExec (a_pc y 0) = false -> outs (a_tr y) = flat_map want (posts (a_tr y)).
  Proof.
    intros H Q I. destruct (runs_ordered _ _ _ _ _ _ _ _ H) as (d & r & A & B & C).
    assert (F : inflight (a_pc y 0) = []) by (destruct (a_pc y 0); auto; discriminate). rewrite F, Q in C. cbn in C.
    rewrite B, A, flat_map_app. replace (flat_map want r) with (@nil out); [now rewrite app_nil_r|].
    clear -C. induction r as [|e r IH]; auto. cbn in *. apply app_eq_nil in C. destruct C as [C1 C2]. pose proof (ent_want e) as W. rewrite C1 in W. rewrite W. cbn. auto.
  Qed.
  (** Whenever the worker is not inside the executive, every effect has been followed by a step. *)
  Theorem C29_stepped x h y : runs true x h y -> inExec (a_pc y 0) = false -> stepped (a_tr y).
  Proof.
    intros H I. destruct (runs_steps _ _ _ _ _ _ _ _ H) as [P|S]; auto. destruct (a_pc y 0); try discriminate; cbn in P; discriminate.
  Qed.
  (** The worker fails only on an accepted message (see C29_accept_refuted). *)
  Theorem C29_no_failure x h y c : runs true x h y -> a_pc y 0 = W_crash c -> exists t m hd, In (EvPost t (PMessageAccepted (Some m) hd)) (a_tr y) /\ hd <> [].
  Proof.
    intros H PC. destruct (runs_ordered _ _ _ _ _ _ _ _ H) as (d & r & A & B & C). rewrite PC in C. cbn in C.
    assert (AS : process c = RAssert).
    { clear -H PC. revert c PC. induction H as [|h y t a y' R IH ST]; intros c PC; [discriminate|]. destruct (runs_roles _ _ _ _ _ _ _ _ R) as [R1 _].
      destruct (step_cases _ _ _ _ _ _ _ _ _ R1 ST) as [[-> W]|[N W]].
      - destruct W; unfold w in PC; rewrite ?put_eq in PC; cbn in PC; try (rewrite upd_eq in PC); try (destruct (a_planLoaded y && af)); try (destruct (f_old f <? a_lastMark y)); try congruence;
          try (rewrite upd_eq in PC); try congruence; try (inversion PC; subst; auto; fail); unfold pqReturn in PC;
          repeat match type of PC with context[if ?b then _ else _] => destruct b; try discriminate end.
      - apply IH. rewrite <- PC. symmetry. destruct W; unfold w; rewrite ?put_eq; cbn; try (unfold upd; destruct t; [congruence|]); auto. }
    destruct (ent_head _ _ _ C) as (r0 & e & r1 & E1 & E2 & E3 & E4). pose proof (ent_want e) as W. rewrite E3, AS in W. destruct W as (m & hd & -> & NE).
    assert (I : In (PMessageAccepted (Some m) hd) (posts (a_tr y))). { rewrite A, E1. apply in_or_app. right. apply in_or_app. right. now left. }
    apply in_posts in I. destruct I as [t I]. eauto.
  Qed.
  (** Only one thread is ever inside the executive. *)
  Theorem C29_exclusive x h y t t' : runs true x h y -> inExec (a_pc y t) = true -> inExec (a_pc y t') = true -> t = t'.
  Proof.
    intros H I I'. destruct (runs_roles _ _ _ _ _ _ _ _ H) as [_ M]. unfold mutexOk in M. destruct (a_mutex y) as [hd|].
    - destruct M as [_ M]. destruct (Nat.eq_dec t hd) as [->|N]; [|rewrite (M t N) in I; discriminate]. destruct (Nat.eq_dec t' hd) as [->|N]; auto. rewrite (M t' N) in I'. discriminate.
    - rewrite M in I. discriminate.
  Qed.

  (** * C42 *)
  (** When the worker sleeps, everything posted before any notification has been applied, and
      every effect has been followed by a step. *)
  Theorem C42_no_lost x h y : runs true x h y -> asleep y -> served (a_tr y) /\ stepped (a_tr y).
  Proof.
    intros H (P & S & SU & NR). split; [|apply (C29_stepped _ _ _ H); now rewrite P].
    pose proof (runs_ordered _ _ _ _ _ _ _ _ H) as O.
    destruct (runs_noLost _ _ _ _ _ _ _ _ H) as [L|[F|[E|[E|(t & _ & E)]]]]; try congruence.
    - rewrite P in L. discriminate.
    - apply fresh_served; auto. now rewrite P.
    - exfalso. apply NR. exists t. auto.
  Qed.
  (** ... and if anyone ever notified, the executive needs no further step. *)
  Theorem C42_quiescent x h y t : (forall x, needsStep (clean x) = needsStep x) -> runs true x h y -> asleep y -> In (EvNotify t) (a_tr y) -> needsStep (a_x y) = false.
  Proof.
    intros HC H (P & S & SU & NR) I. destruct (runs_quiet _ _ _ _ _ HC _ _ _ H) as [N|[[E|[E|(t' & _ & E)]]|Q]]; try congruence.
    - now destruct (N t).
    - exfalso. apply NR. exists t'. auto.
    - rewrite P in Q. exact Q.
  Qed.

  (** * C43, as long as no two threads are inside markQueue at the same time *)
  (** notifyAndWaitForCompletion returns only after everything posted before its mark was applied. *)
  Theorem C43_return x h y l1 t n l2 : xruns x h y -> a_tr y = l1 ++ EvReturn t n :: l2 ->
    exists p1 p2, l1 = p1 ++ EvPost t (PMark n) :: p2 /\ prefix (flat_map want (posts p1)) (outs l1).
  Proof. intros H. apply (runs_returns _ _ _ _ _ _ _ _ H). Qed.
  (** While it waits for its mark, the worker does not sleep. *)
  Theorem C43_worker_awake x h y t n : xruns x h y -> a_pc y t = N_wait n \/ a_pc y t = N_post n \/ a_pc y t = N_test n -> a_lastMark y < n -> ~ asleep y.
  Proof.
    intros H P L A. pose proof (xruns_runs _ _ _ _ _ _ _ _ H) as R. pose proof (runs_marks _ _ _ _ _ _ _ _ H) as K. pose proof (runs_ordered _ _ _ _ _ _ _ _ R) as O.
    destruct (C42_no_lost _ _ _ R A) as [SV _]. destruct (k_in2 _ K t n P) as (p1 & p2 & p3 & T).
    destruct (SV (p1 ++ EvPost t (PMark n) :: p2) t p3) as [r E]. { rewrite T, <- app_assoc. reflexivity. }
    assert (I : In n (mt y)). { apply in_mks, in_posts. exists t. rewrite T. apply in_or_app. right. now left. }
    assert (J : In n (pm y)). { unfold pm. rewrite E, omks_app, omks_want, posts_app, mks_app. apply in_or_app. left. apply in_or_app. right. now left. }
    apply (seen_iff _ _ O K I) in J. lia.
  Qed.
  (** Once its mark was seen and the worker waits again, m_markSem can be taken, or is held by a
      thread which is about to post it again. *)
  Theorem C43_no_starvation x h y t n : xruns x h y -> a_pc y t = N_wait n -> n <= a_lastMark y -> a_pc y 0 = W_wait ->
    a_markSem y <> 0 \/ exists t' k, a_pc y t' = N_post k.
  Proof.
    intros H P L W. pose proof (runs_token _ _ _ _ _ _ _ _ H) as T. unfold tokenOk in T. rewrite W in T.
    pose proof (runs_marks _ _ _ _ _ _ _ _ H) as K. destruct (k_in2 _ K t n (or_introl P)) as (p1 & p2 & p3 & E).
    assert (I : In n (mt y)). { apply in_mks, in_posts. exists t. rewrite E. apply in_or_app. right. now left. }
    pose proof (k_le _ K n I). destruct T as [T|(t' & k & _ & T)]; [lia|left; auto|right; eauto].
  Qed.

  (** * C45: stop() *)
  (** Once stop() waits for the worker, a waiting worker can go on, and its next three statements
      end it (whatever other threads do, it does not run the executive again). *)
  Theorem C45_stop x h y t : runs true x h y -> a_pc y t = S_5 -> t <> 0 ->
    match a_pc y 0 with
    | W_wait => exists y', step true y 0 Go = Some y' /\ a_pc y' 0 = W_chk
    | W_chk => exists y', step true y 0 Go = Some y' /\ a_pc y' 0 = W_go
    | W_go => exists y', step true y 0 Go = Some y' /\ a_pc y' 0 = W_done
    | _ => True
    end.
  Proof.
    intros H P N. pose proof (runs_stop _ _ _ _ _ _ _ _ H t N) as S. rewrite P in S. unfold done0 in S. destruct (a_pc y 0) eqn:PC; auto;
      destruct S as [S|[S1 S2]]; try discriminate; unfold AppModel.step; rewrite PC.
    - destruct S2 as [S2|[S2|S2]]; try discriminate. rewrite (proj2 (Nat.eqb_neq _ _) S2). eexists. split; reflexivity.
    - eexists. split; [reflexivity|]. cbn. now rewrite S1.
    - rewrite S1. eexists. split; reflexivity.
  Qed.
  (** Stop returns only when the worker has ended. *)
  Theorem C45_joined x h y y' t : runs true x h y -> step true y t Go = Some y' -> a_pc y t = S_5 -> a_pc y 0 = W_done.
  Proof. intros H E P. unfold AppModel.step in E. rewrite P in E. destruct (a_pc y 0); try discriminate; auto. Qed.
End Props.

(** * Concrete runs and refutations *)
Section Conc.
  Context {X : Type}.
  Variable (apply : eff -> X -> X) (execStep clean : X -> X) (needsStep allFinished : X -> bool).
  Notation step := (step apply execStep clean needsStep allFinished).
  Notation runs := (runs apply execStep clean needsStep allFinished).
  Notation xruns := (xruns apply execStep clean needsStep allFinished true).
  Definition exec (bk : bool) (l : list (nat * act)) (y : app) : option app :=
    fold_left (fun o ta => match o with Some y => step bk y (fst ta) (snd ta) | None => None end) l (Some y).
  Lemma exec_none bk l : fold_left (fun o ta => match o with Some y => step bk y (fst ta) (snd ta) | None => None end) l None = None.
  Proof. induction l; cbn; auto. Qed.
  Lemma exec_cons bk t a l y : exec bk ((t, a) :: l) y = match step bk y t a with Some y1 => exec bk l y1 | None => None end.
  Proof. unfold exec. cbn [fold_left fst snd]. destruct (step bk y t a); auto. apply exec_none. Qed.
  Lemma exec_runs0 bk x l : forall h y y', runs bk x h y -> exec bk l y = Some y' -> runs bk x (h ++ l) y'.
  Proof.
    induction l as [|[t a] l IH]; intros h y y' R E; [inversion E; subst; now rewrite app_nil_r|]. rewrite exec_cons in E.
    destruct (step bk y t a) as [y1|] eqn:S; [|discriminate]. change ((t, a) :: l) with ([(t, a)] ++ l). rewrite app_assoc. eapply IH; eauto. econstructor; eauto.
  Qed.
  Lemma exec_runs bk x l y : exec bk l (app0 x) = Some y -> runs bk x l y.
  Proof. intros E. apply (exec_runs0 bk x l [] (app0 x)); auto. constructor. Qed.
  (** With one client thread, markQueue calls cannot overlap. *)
  Lemma single_xruns x h y : runs true x h y -> (forall ta, In ta h -> fst ta = 0 \/ fst ta = 1) -> xruns x h y.
  Proof.
    intros H. enough (G : (forall ta, In ta h -> fst ta = 0 \/ fst ta = 1) -> xruns x h y /\ forall t, 1 < t -> a_pc y t = TIdle) by tauto.
    induction H as [|h y t a y' R IH ST]; intros T.
    - split; [constructor|]. intros t L. destruct t; [lia|]. reflexivity.
    - destruct IH as [IH1 IH2]. { intros ta I. apply T, in_or_app; auto. }
      assert (TT : t = 0 \/ t = 1) by (apply (T (t, a)), in_or_app; right; now left).
      destruct (runs_roles _ _ _ _ _ _ _ _ R) as [R1 R2].
      assert (ID : forall t', 1 < t' -> a_pc y' t' = TIdle).
      { intros t' L. rewrite <- (IH2 t' L). destruct (step_cases _ _ _ _ _ _ _ _ _ R1 ST) as [[-> W]|[N W]].
        - destruct W; ifs; sm; rewrite ?upd_ne by lia; auto.
        - destruct W; sm; rewrite ?upd_ne by lia; auto. }
      assert (RO : roles y'). { destruct (step_cases _ _ _ _ _ _ _ _ _ R1 ST) as [[-> W]|[N W]]; [eapply roles_w|eapply roles_c]; eauto. }
      split; auto. econstructor; eauto. intros (u & u' & NU & A & B).
      assert (K : forall u, inMark (a_pc y' u) = true -> u = 1).
      { intros v M. destruct v as [|[|v]]; auto.
        - destruct RO as [RO _]. destruct (a_pc y' 0); discriminate.
        - rewrite ID in M by lia. discriminate. }
      rewrite (K u A), (K u' B) in NU. auto.
  Qed.
End Conc.

(** An executive counting: effects raise the number, steps lower it to zero. *)
Definition cApply (f : eff) (n : nat) : nat := S n.
Definition cNeeds (n : nat) : bool := negb (Nat.eqb n 0).
Definition cFin (n : nat) : bool := Nat.eqb n 0.
Definition cId (n : nat) : nat := n.
Notation cexec := (exec cApply pred cId cNeeds cFin).
Notation cruns := (runs cApply pred cId cNeeds cFin).
Definition go (t n : nat) : list (nat * act) := repeat (t, Go) n.

(** Non-vacuity: an event is posted, notified, and the worker sleeps again. *)
Example C42_example : exists y, cruns true 0 (go 0 8 ++ [(1, Post PMessageQueueEmpty); (1, Notify)] ++ go 0 17) y /\ asleep y /\
  a_tr y = [EvStep; EvPost 1 PMessageQueueEmpty; EvNotify 1; EvApply FQueueEmpty; EvStep].
Proof.
  eexists. split; [apply exec_runs; vm_compute; reflexivity|]. split; [|vm_compute; reflexivity].
  split; [reflexivity|]. split; [reflexivity|]. split; [reflexivity|]. intros (t & H).
  destruct t as [|[|t]]; vm_compute in H; destruct H; discriminate.
Qed.
(** Non-vacuity of C43: an event, then notifyAndWaitForCompletion, which returns. *)
Example C43_example : exists y, xruns cApply pred cId cNeeds cFin true 0
    (go 0 8 ++ [(1, Post PMessageQueueEmpty); (1, NotifyWait)] ++ go 1 4 ++ go 0 19 ++ go 1 3) y /\
  a_tr y = [EvStep; EvPost 1 PMessageQueueEmpty; EvPost 1 (PMark 1); EvNotify 1; EvApply FQueueEmpty; EvMark 1; EvStep; EvReturn 1 1].
Proof.
  eexists. split; [|shelve]. apply single_xruns; [apply exec_runs; vm_compute; reflexivity|].
  cbn. intros ta I. repeat (destruct I as [<-|I]; [cbn; auto|]). destruct I.
  Unshelve. vm_compute. reflexivity.
Qed.
Example C45_example : exists y, cruns true 0 (go 0 8 ++ [(1, Stop)] ++ go 1 3) y /\ a_pc y 1 = S_5 /\ a_pc y 0 = W_wait.
Proof. eexists. split; [apply exec_runs; vm_compute; reflexivity|]. vm_compute. auto. Qed.

(** C29: an accepted message makes the worker fail: its handle is not stored in the queue entry. *)
Theorem C29_accept_refuted : exists y c, cruns true 0 ([(1, Post (PMessageAccepted (Some 7) [104%Z]))] ++ go 0 5) y /\ a_pc y 0 = W_crash c.
Proof. eexists _, _. split; [apply exec_runs; vm_compute; reflexivity|]. vm_compute. reflexivity. Qed.

(** C42: the worker's first step() is a single step: the worker sleeps although the executive needs
    more steps. *)
Theorem C42_initial_step_refuted : exists y, cruns true 0 ([(1, Post PMessageQueueEmpty); (1, Post PMessageQueueEmpty)] ++ go 0 13) y /\ asleep y /\ cNeeds (a_x y) = true.
Proof.
  eexists. split; [apply exec_runs; vm_compute; reflexivity|]. split; [|vm_compute; reflexivity].
  split; [reflexivity|]. split; [reflexivity|]. split; [reflexivity|]. intros (t & H).
  destruct t as [|[|t]]; vm_compute in H; destruct H; discriminate.
Qed.

(** C43: three threads using the counter together: thread 1 writes back an old number, thread 2 gets
    a number that was already processed and returns although the event it posted before has not
    been applied. *)
Theorem C43_lost_count_refuted : exists y l1, cruns true 0
    (go 0 8 ++ [(1, NotifyWait); (1, Go)] ++ [(3, NotifyWait)] ++ go 3 4 ++ go 0 17 ++ go 3 3 ++ [(3, NotifyWait)] ++ go 3 4 ++ go 0 17 ++ go 3 3
       ++ [(1, Go); (2, Post PMessageQueueEmpty); (2, NotifyWait)] ++ go 2 7) y /\
  a_tr y = l1 ++ [EvPost 2 PMessageQueueEmpty; EvPost 2 (PMark 2); EvNotify 2; EvReturn 2 2] /\ ~ In (OEff FQueueEmpty) (outs (a_tr y)).
Proof.
  eexists _, _. split; [apply exec_runs; vm_compute; reflexivity|]. split.
  - vm_compute. match goal with |- ?l = _ => let n := eval vm_compute in (length l - 4) in transitivity (firstn n l ++ skipn n l); [reflexivity|]; cbn [skipn]; reflexivity end.
  - vm_compute. intuition discriminate.
Qed.
(** C43: it may return before the executive has been stepped, because m_markSem stays posted after
    the first use. *)
Theorem C43_before_step_refuted : exists y, cruns true 0
    (go 0 8 ++ [(1, NotifyWait)] ++ go 1 4 ++ go 0 17 ++ go 1 3 ++ [(1, Post PMessageQueueEmpty); (1, NotifyWait)] ++ go 1 4 ++ go 0 11 ++ go 1 3) y /\
  In (EvReturn 1 2) (a_tr y) /\ ~ stepped (a_tr y).
Proof.
  eexists. split; [apply exec_runs; vm_compute; reflexivity|]. split; [vm_compute; tauto|].
  intros S. specialize (S [EvStep; EvPost 1 (PMark 1); EvNotify 1; EvMark 1; EvStep; EvReturn 1 1; EvPost 1 PMessageQueueEmpty; EvPost 1 (PMark 2); EvNotify 1] FQueueEmpty
                          [EvMark 2; EvReturn 1 2] eq_refl). vm_compute in S. intuition discriminate.
Qed.
(** C43: marks may enter the queue in another order than they were numbered; then m_lastMark goes
    backwards and a caller never returns, unless someone else places a mark later. *)
Section Hang.
  Context {X : Type}.
  Variable (apply : eff -> X -> X) (execStep clean : X -> X) (needsStep allFinished : X -> bool) (bk : bool).
  Inductive cont (ok : act -> Prop) (y : app) : app -> Prop :=
  | cont_refl : cont ok y y
  | cont_step y1 t a y2 : cont ok y y1 -> ok a -> step apply execStep clean needsStep allFinished bk y1 t a = Some y2 -> cont ok y y2.
End Hang.
Definition marking (p : pc) : bool := match p with N_read | N_write _ | N_put _ => true | _ => false end.
Record stuck (y : @app nat) : Prop := {
  u_roles : roles y;
  u_mark : forall t, marking (a_pc y t) = false;
  u_q : forall c n, In c (inflight (a_pc y 0) ++ a_q y) -> process c <> RMark n;
  u_last : a_lastMark y = 1;
  u_pc : a_pc y 2 = N_wait 2 \/ a_pc y 2 = N_post 2 \/ a_pc y 2 = N_test 2;
  u_tr : forall n, ~ In (EvReturn 2 n) (a_tr y) }.
Lemma stuck_w (y y' : app) : stuck y -> wstep cApply pred cId cNeeds cFin y y' -> stuck y'.
Proof.
  intros K W. destruct K as [A B C D E F].
  assert (R' : roles y') by (eapply roles_w; eauto).
  assert (PO : forall t, t <> 0 -> a_pc y' t = a_pc y t). { intros t N. destruct W; ifs; sm; rewrite ?upd_ne; auto. }
  constructor; auto.
  - intros t. destruct (Nat.eq_dec t 0) as [->|N]; [|rewrite PO; auto]. destruct R' as [R' _]. destruct (a_pc y' 0); auto; discriminate.
  - destruct W; rewrite H in C; ifs; sm; rewrite ?upd_eq, ?H, ?inflight_pq; cbn [inflight List.app] in *; auto.
    + intros c n I. apply in_app_or in I. destruct I as [I|I]; auto. pose proof (ent_want e) as W. destruct (ent e) as [|c' [|]]; try tauto; destruct I as [<-|[]].
      intros Q. rewrite Q in W. destruct e; cbn in W; try discriminate; try (destruct c; discriminate); try (destruct u; discriminate); try (destruct m; discriminate).
      * destruct m; [destruct handle; discriminate|discriminate].
      * destruct handle; discriminate.
      * now apply (H0 n0).
    + intros c' n I. apply C. rewrite H0. exact I.
    + intros c' k I. apply C. now right.
    + intros c' k I. apply C. now right.
    + intros c' k I. apply C. now right.
  - destruct W; ifs; sm; auto. exfalso. rewrite H in C. apply (C c n); auto. now left.
  - rewrite PO by discriminate. auto.
  - intros n. destruct W; ifs; sm; auto; intros I; apply in_app_or in I; destruct I as [I|[I|[]]]; try discriminate; now apply (F n).
Qed.
Lemma stuck_c (y y' : app) t a : stuck y -> a <> NotifyWait -> step cApply pred cId cNeeds cFin true y t a = Some y' -> t <> 0 -> cstep cFin y t y' -> stuck y'.
Proof.
  intros K NA ST N W. destruct K as [A B C D E F].
  assert (R' : roles y') by (eapply roles_c; eauto).
  assert (P0 : a_pc y' 0 = a_pc y 0) by (destruct W; sm; rewrite ?upd_ne; auto).
  constructor; auto.
  - intros t'. destruct (Nat.eq_dec t' t) as [->|NT].
    + specialize (B t). destruct W; sm; rewrite ?upd_eq; auto; rewrite H in B; try discriminate B; auto.
      * destruct H0 as [[-> ->]|[[-> ->]|[[-> ->]|[[-> ->]|[n [-> ->]]]]]]; auto.
      * exfalso. unfold step in ST. rewrite H in ST. destruct a; try discriminate ST; try congruence;
          match type of ST with _ = Some ?z => assert (Q := f_equal (fun o => match o with Some u => a_pc u t | None => TIdle end) ST) end;
          unfold notify in Q; rewrite ?put_eq in Q;
          try (destruct e; try discriminate); try (destruct (a_susp y)); try (destruct (a_mutex y)); try (destruct (a_allSem y =? 0)); try discriminate ST;
          cbn in Q; rewrite ?put_eq in Q; cbn in Q; rewrite ?upd_eq, ?H in Q; try discriminate Q.
      * destruct H1; subst; auto.
    + replace (a_pc y' t') with (a_pc y t'); auto. destruct W; sm; rewrite ?upd_ne; auto.
  - rewrite P0. destruct W; sm; auto; try (specialize (B t); rewrite H in B; discriminate B).
    + intros c n I. rewrite app_assoc in I. apply in_app_or in I. destruct I as [I|I]; auto. pose proof (ent_want e) as W. destruct (ent e) as [|c' [|]]; try tauto; destruct I as [<-|[]].
      intros Q. rewrite Q in W. destruct e; cbn in W; try discriminate; try (destruct c; discriminate); try (destruct u; discriminate); try (destruct m; discriminate).
      * destruct m; [destruct handle; discriminate|discriminate].
      * destruct handle; discriminate.
      * now apply (H0 n0).
    + intros c n I. rewrite app_assoc in I. apply in_app_or in I. destruct I as [I|[<-|[]]]; auto. discriminate.
  - destruct W; sm; auto.
  - destruct (Nat.eq_dec 2 t) as [<-|NT].
    + destruct W; sm; rewrite ?upd_eq; auto; try (rewrite H in E; destruct E as [E|[E|E]]; try discriminate; inversion E; subst; auto; fail); try (rewrite H in E; destruct E as [E|[E|E]]; inversion E; subst; lia).
      destruct H0 as [[-> ->]|[[-> ->]|[[-> ->]|[[-> ->]|[n [-> ->]]]]]]; rewrite H in E; destruct E as [E|[E|E]]; discriminate.
    + replace (a_pc y' 2) with (a_pc y 2); auto. destruct W; sm; rewrite ?upd_ne; auto.
  - intros n I. destruct W; sm; try (now apply (F n)); rewrite ?put_eq in I; cbn in I; try (now apply (F n));
      apply in_app_or in I; destruct I as [I|[I|[]]]; try discriminate; try (now apply (F n)).
    inversion I; subst. rewrite H in E. destruct E as [E|[E|E]]; inversion E; subst. lia.
Qed.
Theorem C43_hang_refuted : exists y,
  cruns true 0 (go 0 8 ++ [(1, NotifyWait); (2, NotifyWait)] ++ go 1 2 ++ go 2 2 ++ go 2 2 ++ go 1 2 ++ go 0 19 ++ go 1 3) y /\
  In (EvReturn 1 1) (a_tr y) /\ a_pc y 2 = N_wait 2 /\
  forall y', cont cApply pred cId cNeeds cFin true (fun a => a <> NotifyWait) y y' -> forall n, ~ In (EvReturn 2 n) (a_tr y').
Proof.
  eexists. split; [apply exec_runs; vm_compute; reflexivity|]. split; [vm_compute; tauto|]. split; [vm_compute; reflexivity|].
  intros y' C. apply u_tr. induction C as [|y1 t a y2 C IH NA ST].
  - constructor.
    + split; [reflexivity|]. intros [|[|[|t]]] N; try reflexivity. congruence.
    + intros [|[|[|t]]]; reflexivity.
    + intros c n I. vm_compute in I. tauto.
    + reflexivity.
    + left. reflexivity.
    + intros n I. vm_compute in I. intuition discriminate.
  - destruct (step_cases _ _ _ _ _ _ _ _ _ (u_roles _ IH) ST) as [[-> W]|[N W]]; [eapply stuck_w|eapply stuck_c]; eauto.
Qed.

(** * C44: with setRunExecInBkgndOnly(false), notifyExec takes m_execMutex and then calls runExec,
    which takes it again: the caller blocks forever, and so does everybody who needs the executive. *)
Definition okp (p : pc) : bool :=
  match p with
  | W_release _ => false
  | W_empty f _ | W_get f _ _ | W_apply f _ _ _ | W_step f | W_need f | W_clean f | W_unlock f _ | W_postAll f _ | W_postMark f => fr f
  | _ => true
  end.
Definition cl (p : pc) : bool := match p with W_start _ r => match r with RWorker => false | _ => true end | W_lock f => negb (fr f) | _ => false end.
Section Opp.
  Context {X : Type}.
  Variable (apply : eff -> X -> X) (execStep clean : X -> X) (needsStep allFinished : X -> bool).
  Notation step := (step apply execStep clean needsStep allFinished false).
  Notation runs := (runs apply execStep clean needsStep allFinished false).
  Record oinv (y : @app X) : Prop := {
    o_ok : forall t, okp (a_pc y t) = true;
    o_cl : forall t, cl (a_pc y t) = true -> a_mutex y = Some t;
    o_mx : match a_mutex y with
           | None => forall t, inExec (a_pc y t) = false
           | Some t => forall t', t' <> t -> inExec (a_pc y t') = false
           end }.
  Lemma okp_pq f l ns : fr f = true -> okp (pqReturn f l ns) = true. Proof. unfold pqReturn. destruct l, ns; auto. Qed.
  Lemma cl_pq f l ns : cl (pqReturn f l ns) = false. Proof. unfold pqReturn. destruct l, ns; auto. Qed.
  (** Thread t moves to p; the mutex changes from m to m'. *)
  Lemma oinv_move (y y' : app) t p : oinv y -> a_pc y' = upd (a_pc y) t p -> okp p = true ->
    (a_mutex y' = a_mutex y /\ (inExec p = true -> inExec (a_pc y t) = true) /\ (cl p = true -> a_mutex y = Some t)
     \/ a_mutex y = None /\ a_mutex y' = Some t
     \/ a_mutex y' = None /\ inExec (a_pc y t) = true /\ inExec p = false /\ cl p = false) -> oinv y'.
  Proof.
    intros [A B C] P OK M. constructor.
    - intros t'. rewrite P, upd_dec. destruct (Nat.eqb t' t); auto.
    - intros t'. rewrite P, upd_dec. destruct (Nat.eqb_spec t' t) as [->|N]; intros Q.
      + destruct M as [(M & _ & L)|[[M1 M2]|(M1 & M2 & M3 & M4)]]; try congruence. rewrite M. auto.
      + specialize (B t' Q). destruct M as [(M & _ & L)|[[M1 M2]|(M1 & M2 & M3 & M4)]]; try congruence. exfalso. rewrite B in C. rewrite C in M2; auto. discriminate.
    - rewrite P. destruct M as [(M & E & L)|[[M1 M2]|(M1 & M2 & M3 & M4)]].
      + rewrite M. destruct (a_mutex y) as [hd|].
        * intros t' N. rewrite upd_dec. destruct (Nat.eqb_spec t' t) as [->|N2]; [|auto]. specialize (C t N). destruct (inExec p); auto. rewrite E in C; auto.
        * intros t'. rewrite upd_dec. destruct (Nat.eqb_spec t' t) as [->|N2]; [|auto]. specialize (C t). destruct (inExec p); auto. rewrite E in C; auto.
      + rewrite M2. rewrite M1 in C. intros t' N. rewrite upd_ne; auto.
      + rewrite M1. intros t'. rewrite upd_dec. destruct (Nat.eqb_spec t' t) as [->|N]; auto. destruct (a_mutex y) as [hd|]; auto.
        apply C. intros ->. rewrite C in M2; [discriminate|auto].
  Qed.
  Lemma oinv_same (y y' : app) : oinv y -> a_pc y' = a_pc y -> a_mutex y' = a_mutex y -> oinv y'.
  Proof. intros [A B C] P M. constructor; rewrite ?P, ?M; auto. Qed.
  Lemma oinv_notify (y : app) t r p : oinv y -> r <> RWorker -> okp p = true -> inExec p = false -> cl p = false ->
    oinv (match a_mutex y with Some _ => at_ (emit (postSem y) (EvNotify t)) t p | None => at_ (setMutex y (Some t)) t (W_start false r) end).
  Proof.
    intros O NR O1 O2 O3. destruct (a_mutex y) eqn:MX.
    - eapply oinv_move; [exact O|sm; reflexivity|auto|]. left. sm. split; auto. split; congruence.
    - eapply oinv_move; [exact O|sm; reflexivity|auto|]. right. left. auto.
  Qed.
  Lemma oinv_step y t a y' : oinv y -> step y t a = Some y' -> oinv y'.
  Proof.
    intros O E. pose proof (o_ok _ O t) as OK. pose proof (o_cl _ O t) as CL. unfold AppModel.step, notify in E.
    destruct (a_pc y t) eqn:PC; try discriminate OK; destruct a; try discriminate E;
      repeat match type of E with match ?e with _ => _ end = Some _ => destruct e eqn:?; try discriminate E end;
      inversion E; subst y'; clear E;
      try solve [eapply oinv_same; [exact O|..]; sm; auto];
      try solve [eapply oinv_move; [exact O|..]; sm; [reflexivity|ifs; try apply okp_pq; auto|]; ifs; rewrite PC, ?cl_pq; cbn [inExec cl]; intuition (auto; congruence)].
    - apply oinv_notify; auto; discriminate.
    - eapply oinv_move; [exact O|..]; sm; [reflexivity|reflexivity|]. left. rewrite PC. cbn [inExec cl]. split; auto. split; auto. unfold fr. cbn. intros Q. apply CL. cbn. destruct r; auto.
    - cbn [cl] in CL. assert (FR : fr f = true). { destruct (fr f); auto. discriminate (CL eq_refl). }
      eapply oinv_move; [exact O|..]; sm; auto.
    - ifs; (eapply oinv_move; [exact O|..]; sm; [reflexivity|exact OK|]); left; rewrite PC; cbn; intuition (auto; congruence).
    - cbn [okp] in OK. unfold fr in OK. destruct (f_ret f); try discriminate OK. ifs; (eapply oinv_move; [exact O|..]; sm; [reflexivity|reflexivity|]); left; rewrite PC; cbn; intuition (auto; congruence).
    - apply oinv_notify; auto; discriminate.
    - apply oinv_notify; auto; discriminate.
    - apply oinv_notify; auto; discriminate.
    - apply oinv_notify; auto; discriminate.
  Qed.
  Lemma runs_oinv x h y : runs x h y -> oinv y.
  Proof.
    induction 1; [|eapply oinv_step; eauto]. constructor; cbn; try (intros t; destruct (Nat.eqb t 0); auto; discriminate).
  Qed.
  Definition acts (l : list ev) : list ev := filter (fun e => match e with EvApply _ | EvMark _ | EvStep => true | _ => false end) l.
  Theorem C44_opportunistic_refuted x h y t y1 : runs x h y -> a_mutex y = None -> a_pc y t = TIdle -> step y t Notify = Some y1 ->
    forall y2, cont apply execStep clean needsStep allFinished false (fun _ => True) y1 y2 ->
      acts (a_tr y2) = acts (a_tr y) /\ (a_pc y2 t = W_start false RIdle \/ exists f, a_pc y2 t = W_lock f).
  Proof.
    intros R MX PC ST y2 C. pose proof (runs_oinv _ _ _ R) as O.
    enough (G : acts (a_tr y2) = acts (a_tr y) /\ (a_pc y2 t = W_start false RIdle \/ exists f, a_pc y2 t = W_lock f) /\ a_mutex y2 = Some t /\ oinv y2) by tauto.
    induction C as [|y2 t' a y3 C IH _ ST'].
    - assert (O1 : oinv y1) by (eapply oinv_step; eauto). unfold AppModel.step, notify in ST. rewrite PC, MX in ST. inversion ST; subst y1. sm. rewrite upd_eq. auto.
    - destruct IH as (T & P & M & O2). assert (O3 : oinv y3) by (eapply oinv_step; eauto).
      assert (NE : inExec (a_pc y2 t') = false).
      { pose proof (o_mx _ O2) as Q. rewrite M in Q. destruct (Nat.eq_dec t' t) as [->|N]; [|auto]. destruct P as [P|[f P]]; rewrite P; reflexivity. }
      pose proof (o_ok _ O2 t') as OK.
      assert (G : acts (a_tr y3) = acts (a_tr y2) /\ a_mutex y3 = a_mutex y2 /\ (t' <> t -> a_pc y3 t = a_pc y2 t)).
      { clear -ST' NE OK M. unfold acts. unfold AppModel.step, notify in ST'. rewrite M in ST'.
        destruct (a_pc y2 t') eqn:PC; try discriminate NE; try discriminate OK; destruct a; try discriminate ST';
          repeat match type of ST' with match ?e with _ => _ end = Some _ => destruct e eqn:?; try discriminate ST' end;
          inversion ST'; subst y3; clear ST'; ifs; sm;
          (split; [rewrite ?filter_app; cbn; rewrite ?app_nil_r; reflexivity|]; split; [auto|]; intros N; rewrite ?upd_ne by auto; auto). }
      destruct G as (G1 & G2 & G3). split; [congruence|]. split; [|split; [congruence|auto]].
      destruct (Nat.eq_dec t' t) as [->|N]; [|rewrite G3; auto].
      unfold AppModel.step in ST'. destruct P as [P|[f P]]; rewrite P in ST'; destruct a; try discriminate ST'.
      + inversion ST'; subst y3. sm. rewrite upd_eq. eauto.
      + rewrite M in ST'. discriminate.
  Qed.
End Opp.
Example C44_example : exists y1, cruns false 0 (go 0 8) (match cexec false (go 0 8) (app0 0) with Some y => y | None => app0 0 end) /\
  step cApply pred cId cNeeds cFin false (match cexec false (go 0 8) (app0 0) with Some y => y | None => app0 0 end) 1 Notify = Some y1.
Proof. eexists. split; [apply exec_runs; vm_compute; reflexivity|]. vm_compute. reflexivity. Qed.

(** * C46: waitForPlanFinished returns although a plan is unfinished: the semaphore is posted again
    at every notification after the first plan finished.  (Executive: plan 1 never finishes.) *)
Definition pApply (f : eff) (n : nat) : nat := match f with FPlan 1 => 1 | _ => n end.
Definition pNeeds (n : nat) : bool := false.
Theorem C46_stale_refuted : exists y, runs pApply cId cId pNeeds cFin true 0
    (go 0 8 ++ [(1, AddPlan 0); (1, Go); (1, Notify)] ++ go 0 17 ++ [(1, WaitPlan); (2, Notify)] ++ go 0 14
     ++ [(1, AddPlan 1); (1, Go); (1, Notify)] ++ go 0 17 ++ [(1, WaitPlan)]) y /\
  a_tr y = [EvStep; EvPost 1 (PPlan 0); EvNotify 1; EvApply (FPlan 0); EvStep; EvPlanWait 1; EvNotify 2; EvStep;
            EvPost 1 (PPlan 1); EvNotify 1; EvApply (FPlan 1); EvStep; EvPlanWait 1] /\ cFin (a_x y) = false.
Proof. eexists. split; [apply exec_runs; vm_compute; reflexivity|]. vm_compute. auto. Qed.

(** Assumptions *)
Print Assumptions C29_accept_refuted.
Print Assumptions C42_initial_step_refuted.
Print Assumptions C43_lost_count_refuted.
Print Assumptions C43_before_step_refuted.
Print Assumptions C43_hang_refuted.
Print Assumptions C46_stale_refuted.
Print Assumptions C29_in_order.
Print Assumptions C29_complete.
Print Assumptions C29_stepped.
Print Assumptions C29_no_failure.
Print Assumptions C29_exclusive.
Print Assumptions C42_no_lost.
Print Assumptions C42_quiescent.
Print Assumptions C43_return.
Print Assumptions C43_worker_awake.
Print Assumptions C43_no_starvation.
Print Assumptions C45_stop.
Print Assumptions C45_joined.
Print Assumptions C44_opportunistic_refuted.
