(** Invariants for AppModel. *)
From Verif Require Import AppModel AppSpec.

Definition fr (f : frame) : bool := match f_ret f with RWorker => true | _ => false end.
Definition isW (p : pc) : bool :=
  match p with
  | W_start _ RWorker => true
  | W_lock f | W_empty f _ | W_get f _ _ | W_apply f _ _ _ | W_step f | W_need f | W_clean f | W_unlock f _ | W_postAll f _ | W_postMark f => fr f
  | W_wait | W_chk | W_chk2 | W_go | W_done | W_crash _ => true
  | _ => false
  end.
Definition isC (p : pc) : bool :=
  match p with
  | TIdle | N_read | N_write _ | N_put _ | N_notify _ | N_wait _ | N_post _ | N_test _ | T_plan | T_resume | S_1 | S_2 | S_3 | S_4 | S_5 | Q_in => true
  | _ => false
  end.
Section P.
  Context {X : Type}.
  Variable (apply : eff -> X -> X) (execStep clean : X -> X) (needsStep allFinished : X -> bool).
  Notation step := (step apply execStep clean needsStep allFinished true).
  Notation runs := (runs apply execStep clean needsStep allFinished true).
  Notation app := (@app X).

  Lemma upd_eq {A} (f : nat -> A) t p : upd f t p t = p. Proof. unfold upd. now rewrite Nat.eqb_refl. Qed.
  Lemma upd_ne {A} (f : nat -> A) t p t' : t' <> t -> upd f t p t' = f t'. Proof. unfold upd. intros N. now rewrite (proj2 (Nat.eqb_neq _ _) N). Qed.
  Lemma upd_dec {A} (f : nat -> A) t p t' : upd f t p t' = if Nat.eqb t' t then p else f t'. Proof. reflexivity. Qed.

  (** ** The steps of the worker, one constructor per statement. *)
  Definition sel {A} (b : bool) (x y : A) := if b then x else y.
  Definition w y p : app := at_ y 0 p.
  Inductive wstep (y : app) : app -> Prop :=
  | w_post e f : a_pc y 0 = W_step f -> (forall n, e <> PMark n) -> wstep y (put y 0 e)
  | w_notify f : a_pc y 0 = W_step f -> wstep y (emit (postSem y) (EvNotify 0))
  | w_start o : a_pc y 0 = W_start o RWorker -> wstep y (w y (W_lock (mkF o (a_lastMark y) RWorker)))
  | w_lock f : a_pc y 0 = W_lock f -> a_mutex y = None -> wstep y (w (setMutex y (Some 0)) (W_empty f false))
  | w_empty0 f l : a_pc y 0 = W_empty f l -> a_q y = [] -> wstep y (w y (pqReturn f l false))
  | w_empty1 f l : a_pc y 0 = W_empty f l -> a_q y <> [] -> wstep y (w y (W_get f l false))
  | w_get0 f l ns : a_pc y 0 = W_get f l ns -> a_q y = [] -> wstep y (w y (pqReturn f l ns))
  | w_get1 f l ns c q : a_pc y 0 = W_get f l ns -> a_q y = c :: q -> wstep y (w (setQ y q) (W_apply f l ns c))
  | w_mark f l ns c n : a_pc y 0 = W_apply f l ns c -> process c = RMark n -> wstep y (w (emit (setMarks y (a_markCount y) n) (EvMark n)) (W_get f l ns))
  | w_eff f l ns c e : a_pc y 0 = W_apply f l ns c -> process c = REff e -> wstep y (w (emit (setX y (apply e (a_x y))) (EvApply e)) (W_get f l true))
  | w_noth f l ns c : a_pc y 0 = W_apply f l ns c -> process c = RNothing -> wstep y (w y (W_get f l ns))
  | w_assert f l ns c : a_pc y 0 = W_apply f l ns c -> process c = RAssert -> wstep y (w y (W_crash c))
  | w_step f : a_pc y 0 = W_step f -> wstep y (w (emit (setX y (execStep (a_x y))) EvStep) (if f_once f then W_clean f else W_need f))
  | w_need f : a_pc y 0 = W_need f -> wstep y (w y (if needsStep (a_x y) then W_step f else W_empty f true))
  | w_clean f : a_pc y 0 = W_clean f -> wstep y (w (setX y (clean (a_x y))) (W_unlock f (allFinished (clean (a_x y)))))
  | w_unlock f af : a_pc y 0 = W_unlock f af -> wstep y (w (setMutex y None) (W_postAll f af))
  | w_postAll f af : a_pc y 0 = W_postAll f af ->
      wstep y (w (if a_planLoaded y && af then setSems y (a_sem y) (a_markSem y) (S (a_allSem y)) else y) (W_postMark f))
  | w_postMark f : a_pc y 0 = W_postMark f ->
      wstep y (w (if Nat.ltb (f_old f) (a_lastMark y) then setSems y (a_sem y) (S (a_markSem y)) (a_allSem y) else y) W_wait)
  | w_wait : a_pc y 0 = W_wait -> a_sem y <> 0 -> wstep y (w (setSems y (pred (a_sem y)) (a_markSem y) (a_allSem y)) W_chk)
  | w_chk : a_pc y 0 = W_chk -> wstep y (w y (if a_stop y then W_go else W_chk2))
  | w_chk2 : a_pc y 0 = W_chk2 -> wstep y (w y (if a_susp y then W_wait else W_go))
  | w_go1 : a_pc y 0 = W_go -> a_stop y = true -> wstep y (w (setFlags y (a_planLoaded y) false (a_susp y)) W_done)
  | w_go0 : a_pc y 0 = W_go -> a_stop y = false -> wstep y (w y (W_start false RWorker)).
  Inductive cstep (y : app) (t : nat) : app -> Prop :=
  | c_post e : a_pc y t = TIdle -> (forall n, e <> PMark n) -> cstep y t (put y t e)
  | c_plan p : a_pc y t = TIdle -> cstep y t (at_ (put y t (PPlan p)) t T_plan)
  | c_plan2 : a_pc y t = T_plan -> cstep y t (at_ (setFlags y true (a_stop y) (a_susp y)) t TIdle)
  | c_notify p p' : a_pc y t = p -> (p = TIdle /\ p' = TIdle \/ p = T_resume /\ p' = TIdle \/ p = S_1 /\ p' = S_2 \/ p = S_3 /\ p' = S_4 \/ exists n, p = N_notify n /\ p' = N_wait n) ->
      cstep y t (at_ (emit (postSem y) (EvNotify t)) t p')
  | c_wait : a_pc y t = TIdle -> cstep y t (at_ y t N_read)
  | c_suspend : a_pc y t = TIdle -> cstep y t (setFlags y (a_planLoaded y) (a_stop y) true)
  | c_resume p : a_pc y t = TIdle -> a_susp y = true -> p = T_resume \/ p = S_1 -> cstep y t (at_ (setFlags y (a_planLoaded y) (a_stop y) false) t p)
  | c_nop : cstep y t y
  | c_stop2 : a_pc y t = TIdle -> a_susp y = false -> cstep y t (at_ y t S_2)
  | c_query : a_pc y t = TIdle -> a_mutex y = None -> cstep y t (at_ (setMutex y (Some t)) t Q_in)
  | c_query2 : a_pc y t = Q_in -> cstep y t (at_ (emit (setMutex y None) (EvFinished t (allFinished (a_x y)))) t TIdle)
  | c_waitPlan : a_pc y t = TIdle -> a_allSem y <> 0 -> cstep y t (emit (setSems y (a_sem y) (a_markSem y) (pred (a_allSem y))) (EvPlanWait t))
  | c_S2 : a_pc y t = S_2 -> cstep y t (at_ (setFlags y (a_planLoaded y) true (a_susp y)) t S_3)
  | c_S4 : a_pc y t = S_4 -> cstep y t (at_ (postSem y) t S_5)
  | c_S5 : a_pc y t = S_5 -> a_pc y 0 = W_done -> cstep y t (at_ (emit y (EvStopped t)) t TIdle)
  | c_read : a_pc y t = N_read -> cstep y t (at_ y t (N_write (a_markCount y)))
  | c_write n : a_pc y t = N_write n -> cstep y t (at_ (setMarks y (S n) (a_lastMark y)) t (N_put (S n)))
  | c_put n : a_pc y t = N_put n -> cstep y t (at_ (put y t (PMark n)) t (N_notify n))
  | c_token n : a_pc y t = N_wait n -> a_markSem y <> 0 -> cstep y t (at_ (setSems y (a_sem y) (pred (a_markSem y)) (a_allSem y)) t (N_post n))
  | c_repost n : a_pc y t = N_post n -> cstep y t (at_ (setSems y (a_sem y) (S (a_markSem y)) (a_allSem y)) t (N_test n))
  | c_again n : a_pc y t = N_test n -> a_lastMark y < n -> cstep y t (at_ y t (N_wait n))
  | c_return n : a_pc y t = N_test n -> n <= a_lastMark y -> cstep y t (at_ (emit y (EvReturn t n)) t TIdle).

  Definition roles (y : app) : Prop := isW (a_pc y 0) = true /\ forall t, t <> 0 -> isC (a_pc y t) = true.
  Lemma step_cases y t a y' : roles y -> step y t a = Some y' -> t = 0 /\ wstep y y' \/ t <> 0 /\ cstep y t y'.
  Proof.
    intros [R0 RC] E. destruct (Nat.eq_dec t 0) as [->|N].
    - left. split; auto. unfold AppModel.step, notify in E.
      destruct (a_pc y 0) eqn:PC; cbn [isW] in R0; try discriminate R0; destruct a; try discriminate E;
        repeat match type of E with
               | match ?e with _ => _ end = Some _ => destruct e eqn:?; try discriminate E
               end; inversion E; subst y'; clear E;
        try solve [eapply w_post; eauto; congruence];
        try solve [econstructor; eauto; congruence].
      + destruct r; try discriminate. eapply w_start; eauto.
      + destruct (f_ret f) eqn:FR; unfold fr in R0; rewrite FR in R0; try discriminate. eapply w_postMark; eauto.
      + apply w_wait; auto. now apply Nat.eqb_neq.
    - right. split; auto. specialize (RC t N). unfold AppModel.step, notify in E.
      destruct (a_pc y t) eqn:PC; cbn [isC] in RC; try discriminate RC; destruct a; try discriminate E;
        repeat match type of E with
               | match ?e with _ => _ end = Some _ => destruct e eqn:?; try discriminate E
               end; inversion E; subst y'; clear E;
        try solve [eapply c_post; eauto; congruence];
        try solve [eapply c_notify; eauto; eauto 10];
        try solve [apply c_nop];
        try solve [econstructor; eauto; congruence].
      + apply c_waitPlan; auto. now apply Nat.eqb_neq.
      + eapply c_token; eauto. now apply Nat.eqb_neq.
      + eapply c_again; eauto. now apply Nat.ltb_lt.
      + eapply c_return; eauto. now apply Nat.ltb_ge.
  Qed.

  Definition ent (e : event) : list content := match entryFor e with Some c => [c] | None => [] end.
  Lemma put_eq (y : app) t e : put y t e = mkApp (a_x y) (a_q y ++ ent e) (a_markCount y) (a_lastMark y) (a_sem y) (a_markSem y) (a_allSem y) (a_mutex y)
    (a_planLoaded y) (a_stop y) (a_susp y) (a_pc y) (a_tr y ++ [EvPost t e]).
  Proof. unfold put, ent. destruct (entryFor e); cbn; rewrite ?app_nil_r; destruct y; reflexivity. Qed.

  Ltac sm := unfold w; rewrite ?put_eq; cbn [at_ emit setX setQ setMarks setSems setMutex setFlags postSem
     a_x a_q a_markCount a_lastMark a_sem a_markSem a_allSem a_mutex a_planLoaded a_stop a_susp a_pc a_tr].
  Ltac sma := unfold w in *; rewrite ?put_eq in *; cbn [at_ emit setX setQ setMarks setSems setMutex setFlags postSem
     a_x a_q a_markCount a_lastMark a_sem a_markSem a_allSem a_mutex a_planLoaded a_stop a_susp a_pc a_tr] in *.
  Ltac ifs := repeat match goal with |- context[if ?b then _ else _] => destruct b eqn:?; sm end.

  (** ** Roles and the mutex *)
  Definition mutexOk (y : app) : Prop :=
    match a_mutex y with
    | None => forall t, inExec (a_pc y t) = false
    | Some t => inExec (a_pc y t) = true /\ forall t', t' <> t -> inExec (a_pc y t') = false
    end.
  Lemma pqReturn_W f l ns : fr f = true -> isW (pqReturn f l ns) = true.
  Proof. unfold pqReturn. destruct l, ns; auto. Qed.
  Lemma pqReturn_E f l ns : inExec (pqReturn f l ns) = true.
  Proof. unfold pqReturn. destruct l, ns; auto. Qed.
  Lemma roles_w y y' : roles y -> wstep y y' -> roles y'.
  Proof.
    intros [R0 RC] W. split.
    - destruct W; sm; ifs; rewrite ?upd_eq; auto; rewrite H in R0; cbn [isW] in *; auto; try apply pqReturn_W; auto.
    - intros t N. destruct W; sm; ifs; rewrite ?upd_ne by auto; auto.
  Qed.
  Lemma roles_c y t y' : roles y -> t <> 0 -> cstep y t y' -> roles y'.
  Proof.
    intros [R0 RC] N W. split.
    - destruct W; sm; rewrite ?upd_ne by auto; auto.
    - intros t' N'. destruct W; sm; auto; rewrite upd_dec; destruct (Nat.eqb t' t); auto.
      + destruct H0 as [[_ ->]|[[_ ->]|[[_ ->]|[[_ ->]|[n [_ ->]]]]]]; reflexivity.
      + destruct H1; subst; reflexivity.
  Qed.
  (** A thread changing position without the mutex changing. *)
  Lemma mutex_move (y y' : app) t p : mutexOk y -> a_mutex y' = a_mutex y -> a_pc y' = upd (a_pc y) t p -> inExec p = inExec (a_pc y t) -> mutexOk y'.
  Proof.
    unfold mutexOk. intros M E1 E2 E3. rewrite E1. assert (Q : forall t', inExec (a_pc y' t') = inExec (a_pc y t')).
    { intros t'. rewrite E2, upd_dec. destruct (Nat.eqb_spec t' t) as [->|]; auto. }
    destruct (a_mutex y).
    - rewrite Q. destruct M; split; auto. intros. rewrite Q. auto.
    - intros. rewrite Q. auto.
  Qed.
  Lemma mutex_same (y y' : app) : mutexOk y -> a_mutex y' = a_mutex y -> a_pc y' = a_pc y -> mutexOk y'.
  Proof. unfold mutexOk. intros M -> ->. auto. Qed.
  Lemma mutex_lock (y y' : app) t p : mutexOk y -> a_mutex y = None -> a_mutex y' = Some t -> a_pc y' = upd (a_pc y) t p -> inExec p = true -> mutexOk y'.
  Proof.
    unfold mutexOk. intros M E0 E1 E2 E3. rewrite E0 in M. rewrite E1, E2, upd_eq. split; auto. intros. rewrite upd_ne; auto.
  Qed.
  Lemma mutex_unlock (y y' : app) t p : mutexOk y -> inExec (a_pc y t) = true -> a_mutex y' = None -> a_pc y' = upd (a_pc y) t p -> inExec p = false -> mutexOk y'.
  Proof.
    unfold mutexOk. intros M I E1 E2 E3. rewrite E1, E2. intros t'. rewrite upd_dec. destruct (Nat.eqb_spec t' t) as [->|N]; auto.
    destruct (a_mutex y) as [h|]; [|apply M]. destruct M as [_ M]. destruct (Nat.eq_dec t h) as [->|N2]; [auto|]. rewrite (M t N2) in I. discriminate.
  Qed.
  Lemma mutex_w y y' : mutexOk y -> wstep y y' -> mutexOk y'.
  Proof.
    intros M W. destruct W; ifs;
      try solve [eapply mutex_same; [exact M|..]; sm; ifs; auto];
      try solve [eapply mutex_lock; [exact M|..]; sm; eauto];
      try solve [eapply mutex_unlock; [exact M|..]; sm; eauto; rewrite H; reflexivity];
      try solve [eapply mutex_move; [exact M|..]; sm; ifs; eauto; rewrite H; try apply pqReturn_E; reflexivity].
  Qed.
  Lemma mutex_c y t y' : mutexOk y -> cstep y t y' -> mutexOk y'.
  Proof.
    intros M W. destruct W; ifs;
      try solve [eapply mutex_same; [exact M|..]; sm; ifs; auto];
      try solve [eapply mutex_lock; [exact M|..]; sm; eauto];
      try solve [eapply mutex_unlock; [exact M|..]; sm; eauto; rewrite H; reflexivity];
      try solve [eapply mutex_move; [exact M|..]; sm; ifs; eauto; rewrite H; try apply pqReturn_E; reflexivity].
    - eapply mutex_move; [exact M|..]; sm; eauto. rewrite H. destruct H0 as [[-> ->]|[[-> ->]|[[-> ->]|[[-> ->]|[n [-> ->]]]]]]; reflexivity.
    - eapply mutex_move; [exact M|..]; sm; eauto. rewrite H. destruct H1; subst; reflexivity.
  Qed.
  Lemma runs_roles x h y : runs x h y -> roles y /\ mutexOk y.
  Proof.
    induction 1 as [|h y t a y' R [IH1 IH2] ST].
    - split; [split; [reflexivity|]|]; cbn.
      + intros t N. now rewrite (proj2 (Nat.eqb_neq _ _) N).
      + intros t. destruct (Nat.eqb t 0); reflexivity.
    - destruct (step_cases _ _ _ _ IH1 ST) as [[-> W]|[N C]].
      + split; [eapply roles_w|eapply mutex_w]; eauto.
      + split; [eapply roles_c|eapply mutex_c]; eauto.
  Qed.
  (** Induction over runs with the steps split. *)
  Lemma runs_ind2 x (P : app -> Prop) : P (app0 x) ->
    (forall y y', roles y -> mutexOk y -> P y -> wstep y y' -> P y') ->
    (forall y t y', roles y -> mutexOk y -> P y -> t <> 0 -> cstep y t y' -> P y') ->
    forall h y, runs x h y -> P y.
  Proof.
    intros P0 PW PC h y H. induction H as [|h y t a y' R IH ST]; auto. destruct (runs_roles _ _ _ R) as [R1 R2].
    destruct (step_cases _ _ _ _ R1 ST) as [[-> W]|[N C]]; eauto.
  Qed.
End P.
