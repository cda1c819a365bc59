(** Invariants of the executive, for every sequence of loop turns and external
    calls and every choice of notified nodes. *)
From Verif Require Export ExecModel NodeProofs.

(** ---------- lists ---------- *)
Lemma memb_In n l : memb n l = true <-> In n l.
Proof.
  unfold memb; rewrite existsb_exists; split.
  - intros (x & Hx & E); apply Nat.eqb_eq in E; now subst.
  - intro H; exists n; split; [assumption | apply Nat.eqb_refl].
Qed.
Lemma memb_nIn n l : memb n l = false <-> ~ In n l.
Proof. rewrite <- memb_In; destruct (memb n l); split; congruence. Qed.

Lemma rem1_In n m l : In m (rem1 n l) -> In m l.
Proof.
  induction l as [|x l IH]; cbn; [tauto|].
  destruct (Nat.eqb n x); cbn; intuition.
Qed.
Lemma rem1_In_other n m l : m <> n -> (In m (rem1 n l) <-> In m l).
Proof.
  intro Hne; induction l as [|x l IH]; cbn; [tauto|].
  destruct (Nat.eqb_spec n x); cbn; [|tauto].
  subst; split; [tauto|]; intros [->|H]; [congruence|assumption].
Qed.
Lemma rem1_NoDup n l : NoDup l -> NoDup (rem1 n l).
Proof.
  induction 1 as [|x l Hx Hl IH]; cbn; [constructor|].
  destruct (Nat.eqb n x); [assumption|].
  constructor; [|assumption]. intro H; apply rem1_In in H; contradiction.
Qed.
Lemma rem1_gone n l : NoDup l -> ~ In n (rem1 n l).
Proof.
  induction 1 as [|x l Hx Hl IH]; cbn; [tauto|].
  destruct (Nat.eqb_spec n x); [now subst|].
  cbn; intuition congruence.
Qed.
Lemma NoDup_snoc {A} (l : list A) x : NoDup l -> ~ In x l -> NoDup (l ++ [x]).
Proof.
  intros Hl Hx. induction Hl as [|y l Hy Hl IH]; cbn.
  - constructor; [tauto|constructor].
  - constructor.
    + rewrite in_app_iff; cbn; intros [H|[->|[]]]; [contradiction|].
      apply Hx; now left.
    + apply IH; intro; apply Hx; now right.
Qed.
Lemma in_snoc {A} (l : list A) x y : In y (l ++ [x]) <-> In y l \/ y = x.
Proof. rewrite in_app_iff; cbn; intuition congruence. Qed.

Lemma res_eqb_eq a b : res_eqb a b = true <-> a = b.
Proof.
  destruct a, b; cbn; rewrite ?Nat.eqb_eq; split; intro H; try congruence.
Qed.
Lemma res_eqb_refl a : res_eqb a a = true.
Proof. now apply res_eqb_eq. Qed.
Lemma updr_same {B} (f : res -> B) r v : updr f r v r = v.
Proof. unfold updr; now rewrite res_eqb_refl. Qed.
Lemma updr_other {B} (f : res -> B) r v r' : r' <> r -> updr f r v r' = f r'.
Proof.
  intro H; unfold updr. destruct (res_eqb r' r) eqn:E; [|reflexivity].
  apply res_eqb_eq in E; contradiction.
Qed.
Lemma upd_same {B} (f : nat -> B) n v : upd f n v n = v.
Proof. unfold upd; now rewrite Nat.eqb_refl. Qed.
Lemma upd_other {B} (f : nat -> B) n v m : m <> n -> upd f n v m = f m.
Proof. intro H; unfold upd. apply Nat.eqb_neq in H; now rewrite H. Qed.
Lemma res_dec (a b : res) : a = b \/ a <> b.
Proof. destruct (res_eqb a b) eqn:E; [left|right]; [now apply res_eqb_eq|]. intro H; apply res_eqb_eq in H; congruence. Qed.

Lemma insertPrio_In {W} (P : plan W) n l m : In m (insertPrio P n l) <-> m = n \/ In m l.
Proof.
  induction l as [|x l IH]; cbn; [intuition congruence|].
  destruct (_ <? _)%Z; cbn; [intuition congruence|].
  rewrite IH; intuition congruence.
Qed.
Lemma insertPrio_NoDup {W} (P : plan W) n l : NoDup l -> ~ In n l -> NoDup (insertPrio P n l).
Proof.
  induction 1 as [|x l Hx Hl IH]; cbn; intro Hn.
  - constructor; [tauto|constructor].
  - destruct (_ <? _)%Z.
    + constructor; [exact Hn | constructor; assumption].
    + constructor; [|apply IH; tauto].
      rewrite insertPrio_In; intuition congruence.
Qed.

(** ---------- invariant ---------- *)
Definition isPendingQ (q : qstatus) : Prop :=
  q = QPending \/ q = QPendingCheck \/ q = QPendingTry \/ q = QPendingTryCheck.
Definition isTransQ (q : qstatus) : Prop := q = QTransition \/ q = QTransitionCheck.

Definition needs {W} (P : plan W) (n : nat) : list res :=
  mutexes P n ++ (if isAssignment P n then [RVar (p_var P n)] else []).

(** Errors that can be provoked from outside; all others are excluded. *)
Definition tolerated (e : err) : Prop :=
  match e with ENotifyDeleted _ | ENotifyInvalid _ | EAncestorHolds _ => True | _ => False end.

Section Inv.
Context {W : Type} (P : plan W).
Implicit Types (st : est W).

Definition holder st r : option nat := r_holder (e_res st r).
Definition waiters st r : list nat := r_waiters (e_res st r).

Record QInv st : Prop := {
  q_ndc : NoDup (e_cand st); q_ndp : NoDup (e_pend st);
  q_ndg : NoDup (e_chg st); q_ndf : NoDup (e_fin st);
  q_cand : forall n, In n (e_cand st) <-> qs st n = QCheck;
  q_pend : forall n, In n (e_pend st) -> isPendingQ (qs st n) /\ acquiresResources P n = true;
  q_try : forall n, qs st n = QPendingTry \/ qs st n = QPendingTryCheck -> In n (e_pend st);
  q_trans : forall n, isTransQ (qs st n) -> In n (e_chg st);
  q_chg : forall n, In n (e_chg st) ->
            (isTransQ (qs st n) \/ qs st n = QPending \/ qs st n = QPendingCheck) /\ ~ In n (e_pend st);
  q_fin : forall n, In n (e_fin st) -> qs st n = QDelete;
  q_wait : forall r n, In n (waiters st r) -> In n (e_pend st) /\ In r (needs P n);
  q_ndw : forall r, NoDup (waiters st r);
  q_holder : forall r n, holder st r = Some n -> In r (needs P n);
  q_errs : Forall tolerated (e_errs st) }.

(** A node whose next state has been decided and which is allowed to go there. *)
Definition ready (t : ntype) (k : ncore) : Prop :=
  exists s', k_next k = Some s' /\
    go_ok t (k_state k) (k_out k) (k_fail k) s' (Some (k_nextOut k)) (Some (k_nextFail k)).

Record CInv st (n : nat) : Prop := {
  c_has : has_state (p_type P n) (state st n);
  c_coh : coherent (state st n) (k_out (core st n)) (k_fail (core st n));
  c_ready : In n (e_chg st) -> ready (p_type P n) (core st n);
  c_clear : ~ In n (e_chg st) ->
     k_nextOut (core st n) = NO_OUTCOME /\ k_nextFail (core st n) = NO_FAILURE;
  c_pend : In n (e_pend st) -> state st n = WAITING /\ next st n = Some EXECUTING;
  c_run : running (state st n) = true -> forall r, In r (needs P n) -> holder st r = Some n;
  c_go : In n (e_chg st) -> next st n = Some EXECUTING ->
         forall r, In r (needs P n) -> holder st r = Some n;
  c_del : qs st n = QDelete <-> (parent P n = None /\ state st n = FINISHED) }.

(** Everything CInv of [n] depends on is unchanged. *)
Record same (n : nat) st st' : Prop := {
  s_core : core st' n = core st n;
  s_chg : In n (e_chg st') <-> In n (e_chg st);
  s_pend : In n (e_pend st') <-> In n (e_pend st);
  s_hold : forall r, holder st' r = Some n <-> holder st r = Some n;
  s_del : qs st' n = QDelete <-> qs st n = QDelete }.

Lemma same_refl n st : same n st st.
Proof. constructor; tauto. Qed.
Lemma same_trans n a b c : same n a b -> same n b c -> same n a c.
Proof.
  intros [A1 A2 A3 A4 A5] [B1 B2 B3 B4 B5]; constructor.
  - congruence.
  - now rewrite B2.
  - now rewrite B3.
  - intro r; now rewrite B4.
  - now rewrite B5.
Qed.
Lemma CInv_same st st' n : same n st st' -> CInv st n -> CInv st' n.
Proof.
  intros [S1 S2 S3 S4 S5] [C1 C2 C3 C4 C5 C6 C7 C8].
  unfold state, next in *. constructor; unfold state, next in *; rewrite ?S1.
  - assumption.
  - assumption.
  - rewrite S2; assumption.
  - rewrite S2; assumption.
  - rewrite S3; assumption.
  - intros H r Hr; apply S4; now apply C6.
  - rewrite S2; intros H H2 r Hr; apply S4; now apply C7.
  - rewrite S5; assumption.
Qed.

Definition sameall st st' : Prop := forall n, same n st st'.
Definition sameexc (x : nat) st st' : Prop := forall n, n <> x -> same n st st'.
Lemma sameall_refl st : sameall st st.
Proof. intro; apply same_refl. Qed.
Lemma sameall_trans a b c : sameall a b -> sameall b c -> sameall a c.
Proof. intros H1 H2 n; eapply same_trans; [apply H1|apply H2]. Qed.
Lemma sameexc_refl x st : sameexc x st st.
Proof. intros n _; apply same_refl. Qed.
Lemma sameexc_trans x a b c : sameexc x a b -> sameexc x b c -> sameexc x a c.
Proof. intros H1 H2 n Hn; eapply same_trans; [now apply H1|now apply H2]. Qed.
Lemma sameall_exc x a b : sameall a b -> sameexc x a b.
Proof. intros H n _; apply H. Qed.

(** Projections of setters. *)
Lemma qs_setQs st n q m : qs (setQs st n q) m = if Nat.eqb m n then q else qs st m.
Proof. unfold qs, setQs, upd; cbn. destruct (Nat.eqb m n); reflexivity. Qed.
Lemma core_setQs st n q m : core (setQs st n q) m = core st m.
Proof. unfold core, setQs, upd; cbn. destruct (Nat.eqb_spec m n); subst; reflexivity. Qed.
Lemma core_setCore st n k m : core (setCore st n k) m = if Nat.eqb m n then k else core st m.
Proof. unfold core, setCore, upd; cbn. destruct (Nat.eqb m n); reflexivity. Qed.
Lemma qs_setCore st n k m : qs (setCore st n k) m = qs st m.
Proof. unfold qs, setCore, upd; cbn. destruct (Nat.eqb_spec m n); subst; reflexivity. Qed.
Lemma core_setAcks st n a b h m : core (setAcks st n a b h) m = core st m.
Proof. unfold core, setAcks, upd; cbn. destruct (Nat.eqb_spec m n); subst; reflexivity. Qed.
Lemma qs_setAcks st n a b h m : qs (setAcks st n a b h) m = qs st m.
Proof. unfold qs, setAcks, upd; cbn. destruct (Nat.eqb_spec m n); subst; reflexivity. Qed.

Lemma QInv_fail st e : QInv st -> tolerated e -> QInv (fail st e).
Proof.
  intros [] He; constructor; auto.
  cbn. now constructor.
Qed.
Lemma sameall_fail st e : sameall st (fail st e).
Proof. intro n; constructor; cbn; tauto. Qed.

Ltac eqbs := repeat match goal with
  | |- context [Nat.eqb ?a ?b] => destruct (Nat.eqb_spec a b); subst
  | H : context [Nat.eqb ?a ?b] |- _ => destruct (Nat.eqb_spec a b); subst
  end.

(** A change of queue status between two values that no list membership
    depends on. *)
Lemma QInv_setQs st n q :
  QInv st ->
  (qs st n = QCheck <-> q = QCheck) ->
  (In n (e_pend st) -> isPendingQ q) ->
  (q = QPendingTry \/ q = QPendingTryCheck -> In n (e_pend st)) ->
  (isTransQ q -> In n (e_chg st)) ->
  (In n (e_chg st) -> isTransQ q \/ q = QPending \/ q = QPendingCheck) ->
  (In n (e_fin st) -> q = QDelete) ->
  QInv (setQs st n q).
Proof.
  intros [] Hc Hp Ht Hg Hg2 Hf.
  constructor; try assumption; unfold waiters, holder in *; cbn; intros m; rewrite ?qs_setQs; eqbs; auto.
  - rewrite q_cand0; assumption.
  - intro H; split; [auto | apply (q_pend0 n H)].
  - intro H; split; [auto| apply (q_chg0 n H)].
Qed.

Lemma sameall_setQs st n q : (q = QDelete <-> qs st n = QDelete) -> sameall st (setQs st n q).
Proof.
  intros H m. constructor; unfold holder; cbn; rewrite ?core_setQs, ?qs_setQs; try tauto.
  eqbs; tauto.
Qed.

Lemma notify_QInv st n : QInv st -> QInv (notify st n).
Proof.
  intro H. unfold notify.
  destruct (qs st n) eqn:Eq.
  - (* QNone *)
    pose proof H as [].
    assert (Hnc : ~ In n (e_cand st)) by (rewrite q_cand0; congruence).
    assert (Hnp : ~ In n (e_pend st)).
    { intro Hi. destruct (q_pend0 n Hi) as [X _]. unfold isPendingQ in X. rewrite Eq in X; intuition congruence. }
    assert (Hng : ~ In n (e_chg st)).
    { intro Hi. destruct (q_chg0 n Hi) as [X _]. unfold isTransQ in X. rewrite Eq in X; intuition congruence. }
    assert (Hnf : ~ In n (e_fin st)).
    { intro Hi. pose proof (q_fin0 n Hi). congruence. }
    constructor; unfold waiters, holder in *; cbn; try assumption.
    + now apply NoDup_snoc.
    + intro m. rewrite in_snoc. unfold qs; cbn. unfold upd. eqbs; cbn; [intuition congruence|].
      rewrite q_cand0. unfold qs. intuition congruence.
    + intros m. change (qs _ m) with (qs (setQs st n QCheck) m); rewrite qs_setQs; eqbs; [tauto|apply q_pend0].
    + intros m. change (qs _ m) with (qs (setQs st n QCheck) m); rewrite qs_setQs; eqbs; [intuition congruence|apply q_try0].
    + intros m. change (qs _ m) with (qs (setQs st n QCheck) m); rewrite qs_setQs; eqbs; [intros [|]; congruence|apply q_trans0].
    + intros m. change (qs _ m) with (qs (setQs st n QCheck) m); rewrite qs_setQs; eqbs; [tauto|apply q_chg0].
    + intros m. change (qs _ m) with (qs (setQs st n QCheck) m); rewrite qs_setQs; eqbs; [tauto|apply q_fin0].
  - exact H.
  - pose proof H as []. apply QInv_setQs; trivial; try (unfold isPendingQ, isTransQ; intuition congruence).
    intro Hf; apply q_fin0 in Hf; congruence.
  - exact H.
  - pose proof H as []. apply QInv_setQs; trivial; try (unfold isPendingQ, isTransQ; intuition congruence).
    + intros _; apply q_try0; auto.
    + intro Hi. destruct (q_chg0 n Hi) as [X _]. unfold isTransQ in X. rewrite Eq in X; intuition congruence.
    + intro Hf; apply q_fin0 in Hf; congruence.
  - apply QInv_fail; cbn; trivial.
  - pose proof H as []. apply QInv_setQs; trivial; try (unfold isPendingQ, isTransQ; intuition congruence).
    + intro Hi. destruct (q_pend0 n Hi) as [X _]. unfold isPendingQ in X. rewrite Eq in X; intuition congruence.
    + intros _; apply q_trans0; unfold isTransQ; auto.
    + intro Hf; apply q_fin0 in Hf; congruence.
  - exact H.
  - apply QInv_fail; cbn; trivial.
Qed.

Lemma notify_same st n : sameall st (notify st n).
Proof.
  unfold notify. destruct (qs st n) eqn:Eq; try apply sameall_refl; try apply sameall_fail;
    try (apply sameall_setQs; rewrite Eq; split; congruence).
  intro m. constructor; unfold holder; cbn; try tauto.
  - apply (core_setQs st n QCheck m).
  - change (qs (setQs st n QCheck) m = QDelete <-> qs st m = QDelete).
    rewrite qs_setQs; eqbs; [split; congruence|tauto].
Qed.

Lemma notifyAll_QInv l : forall st, QInv st -> QInv (notifyAll st l).
Proof. induction l as [|x l IH]; cbn; intros st H; [exact H|]. apply IH, notify_QInv, H. Qed.
Lemma notifyAll_same l : forall st, sameall st (notifyAll st l).
Proof.
  induction l as [|x l IH]; cbn; intros st; [apply sameall_refl|].
  eapply sameall_trans; [apply notify_same|apply IH].
Qed.

(** Effect of notifications on the popped node: it can only become a candidate. *)
Lemma notify_free st n m : qs st m = QNone \/ qs st m = QCheck ->
  qs (notify st n) m = QNone \/ qs (notify st n) m = QCheck.
Proof.
  intro H. unfold notify. destruct (qs st n) eqn:Eq; try exact H;
  try (rewrite qs_setQs; eqbs; [intuition congruence|exact H]).
  change (qs (setQs st n QCheck) m = QNone \/ qs (setQs st n QCheck) m = QCheck).
  rewrite qs_setQs; eqbs; auto.
Qed.
Lemma notifyAll_free l : forall st m, qs st m = QNone \/ qs st m = QCheck ->
  qs (notifyAll st l) m = QNone \/ qs (notifyAll st l) m = QCheck.
Proof. induction l as [|x l IH]; cbn; intros st m H; [exact H|]. apply IH, notify_free, H. Qed.

(** notifyRes only touches nodes on the pending queue. *)
Lemma notifyRes_QInv st n : QInv st -> In n (e_pend st) -> QInv (notifyRes st n).
Proof.
  intros H Hn. unfold notifyRes. pose proof H as [].
  destruct (qs st n) eqn:Eq; try exact H.
  - apply QInv_setQs; trivial; try (unfold isPendingQ, isTransQ; intuition congruence).
    + intro Hi. destruct (q_chg0 n Hi); contradiction.
    + intro Hf; apply q_fin0 in Hf; congruence.
  - apply QInv_setQs; trivial; try (unfold isPendingQ, isTransQ; intuition congruence).
    + intro Hi. destruct (q_chg0 n Hi); contradiction.
    + intro Hf; apply q_fin0 in Hf; congruence.
Qed.
Lemma notifyRes_same st n : sameall st (notifyRes st n).
Proof.
  unfold notifyRes. destruct (qs st n) eqn:Eq; try apply sameall_refl;
    apply sameall_setQs; rewrite Eq; split; congruence.
Qed.
Lemma notifyRes_res st n : e_res (notifyRes st n) = e_res st.
Proof. unfold notifyRes; destruct (qs st n); reflexivity. Qed.
Lemma notifyRes_pend st n : e_pend (notifyRes st n) = e_pend st.
Proof. unfold notifyRes; destruct (qs st n); reflexivity. Qed.
Lemma notifyRes_qs_other st n m : (qs st m = QNone \/ qs st m = QCheck \/ isTransQ (qs st m)) -> qs (notifyRes st n) m = qs st m.
Proof.
  intro H. unfold notifyRes. destruct (qs st n) eqn:Eq; try reflexivity; rewrite qs_setQs; eqbs; trivial;
  unfold isTransQ in H; intuition congruence.
Qed.

Lemma notifyResAll l : forall st, QInv st -> (forall n, In n l -> In n (e_pend st)) ->
  let st' := fold_left notifyRes l st in
  QInv st' /\ sameall st st' /\ e_res st' = e_res st /\ e_pend st' = e_pend st /\
  (forall m, ~ In m l -> qs st' m = qs st m) /\
  (forall m, (qs st m = QNone \/ qs st m = QCheck \/ isTransQ (qs st m)) -> qs st' m = qs st m).
Proof.
  induction l as [|x l IH]; cbn; intros st H Hl; [split; [exact H|]; split; [apply sameall_refl|]; auto|].
  destruct (IH (notifyRes st x)) as (A & B & C & D & E & F).
  - apply notifyRes_QInv; auto.
  - intros n Hn; rewrite notifyRes_pend; auto.
  - rewrite notifyRes_res, notifyRes_pend in *.
    split; [exact A|]. split; [eapply sameall_trans; [apply notifyRes_same|exact B]|].
    split; [exact C|]. split; [exact D|]. split.
    + intros m Hm. rewrite E by tauto.
      unfold notifyRes; destruct (qs st x) eqn:Eq; try reflexivity; rewrite qs_setQs; eqbs; tauto.
    + intros m Hm. rewrite F; rewrite (notifyRes_qs_other st x m Hm); [reflexivity|exact Hm].
Qed.

(** ---------- resources ---------- *)
Lemma set_res_QInv st f :
  QInv st ->
  (forall r n, In n (r_waiters (f r)) -> In n (e_pend st) /\ In r (needs P n)) ->
  (forall r, NoDup (r_waiters (f r))) ->
  (forall r n, r_holder (f r) = Some n -> In r (needs P n)) ->
  QInv (set_res st f).
Proof. intros [] Hw Hn Hh. constructor; assumption. Qed.

Lemma set_res_same x st f :
  (forall r n, n <> x -> (r_holder (f r) = Some n <-> holder st r = Some n)) ->
  sameexc x st (set_res st f).
Proof. intros H n Hn. constructor; cbn; try tauto. intro r; apply H; exact Hn. Qed.
Lemma set_res_sameall st f :
  (forall r, r_holder (f r) = holder st r) -> sameall st (set_res st f).
Proof. intros H n. constructor; cbn; try tauto. intro r; unfold holder at 1; cbn; now rewrite H. Qed.

Lemma release_spec st r x :
  QInv st ->
  let st' := release st r x in
  QInv st' /\ sameexc x st st' /\
  (forall n, core st' n = core st n) /\ e_chg st' = e_chg st /\ e_pend st' = e_pend st /\
  e_cand st' = e_cand st /\
  (forall n, (qs st n = QNone \/ qs st n = QCheck \/ isTransQ (qs st n)) -> qs st' n = qs st n) /\
  (forall r', waiters st' r' = waiters st r') /\
  (forall r', holder st' r' = if res_eqb r' r then match holder st r with Some h => if Nat.eqb h x then None else Some h | None => None end else holder st r').
Proof.
  intros H. unfold release. fold (holder st r).
  destruct (holder st r) as [h|] eqn:Eh.
  2:{ cbn zeta. split; [exact H|]. split; [apply sameexc_refl|]. repeat (split; [reflexivity || auto|]).
      intro r'; destruct (res_eqb r' r) eqn:E; [apply res_eqb_eq in E; now subst|reflexivity]. }
  destruct (Nat.eqb_spec h x) as [->|Hne].
  2:{ cbn zeta. split; [exact H|]. split; [apply sameexc_refl|]. repeat (split; [reflexivity || auto|]).
      intro r'; destruct (res_eqb r' r) eqn:E; [apply res_eqb_eq in E; now subst|reflexivity]. }
  set (st1 := set_res st (updr (e_res st) r (mkRes None (r_waiters (e_res st r))))).
  assert (H1 : QInv st1).
  { pose proof H as []. apply set_res_QInv; trivial; unfold updr; intros r'; destruct (res_eqb r' r) eqn:E; cbn;
      try apply res_eqb_eq in E; subst; try apply q_wait0; try apply q_ndw0; try apply q_holder0; try discriminate. }
  destruct (notifyResAll (r_waiters (e_res st r)) st1 H1) as (A & B & C & D & E & F).
  { intros n Hn. pose proof H as []. apply (q_wait0 r n Hn). }
  cbn zeta. split; [exact A|]. split.
  { eapply sameexc_trans; [|apply sameall_exc, B].
    apply set_res_same. intros r' n Hn. unfold updr. destruct (res_eqb r' r) eqn:E'; cbn; [|tauto].
    apply res_eqb_eq in E'; subst. rewrite Eh. intuition congruence. }
  assert (Hc : forall l (s : est W), (e_chg (fold_left notifyRes l s) = e_chg s /\ e_cand (fold_left notifyRes l s) = e_cand s)).
  { induction l as [|y l IH]; intro s; cbn; [tauto|]. destruct (IH (notifyRes s y)) as [-> ->].
    unfold notifyRes; destruct (qs s y); tauto. }
  split. { intro n. apply (s_core _ _ _ (B n)). }
  split. { apply (Hc _ st1). }
  split. { exact D. }
  split. { apply (Hc _ st1). }
  split. { intros n Hn. rewrite F by exact Hn. reflexivity. }
  split.
  - intro r'. unfold waiters. rewrite C. cbn. unfold updr. destruct (res_eqb r' r) eqn:E'; cbn; [|reflexivity].
    apply res_eqb_eq in E'; now subst.
  - intro r'. unfold holder. rewrite C. cbn. unfold updr. destruct (res_eqb r' r) eqn:E'; cbn; reflexivity.
Qed.

Lemma releaseAll_spec rs x : forall st,
  QInv st ->
  let st' := releaseAll st x rs in
  QInv st' /\ sameexc x st st' /\
  (forall n, core st' n = core st n) /\ e_chg st' = e_chg st /\ e_pend st' = e_pend st /\
  e_cand st' = e_cand st /\
  (forall n, (qs st n = QNone \/ qs st n = QCheck \/ isTransQ (qs st n)) -> qs st' n = qs st n) /\
  (forall r, holder st' r = Some x -> holder st r = Some x /\ ~ In r rs) /\
  (forall r, waiters st' r = waiters st r).
Proof.
  induction rs as [|r rs IH]; intros st H; cbn.
  - repeat (split; [auto using sameexc_refl|]); auto.
  - destruct (release_spec st r x H) as (A1 & A2 & A3 & A4 & A5 & A6 & A7 & A9 & A8).
    destruct (IH (release st r x) A1) as (B1 & B2 & B3 & B4 & B5 & B6 & B7 & B8 & B9). cbn zeta in *.
    split; [exact B1|]. split; [eapply sameexc_trans; eassumption|].
    split; [intro n; unfold releaseAll in *; now rewrite B3|].
    split; [unfold releaseAll in *; congruence|].
    split; [unfold releaseAll in *; congruence|].
    split; [unfold releaseAll in *; congruence|].
    split; [|split].
    + intros n Hn. unfold releaseAll in *. rewrite B7; rewrite (A7 n Hn); auto.
    + intros r' Hr'. destruct (B8 r' Hr') as [C1 C2]. rewrite A8 in C1.
      destruct (res_eqb r' r) eqn:E.
      * apply res_eqb_eq in E; subst. destruct (holder st r) as [h|]; [|discriminate].
        destruct (Nat.eqb_spec h x); [discriminate|]. congruence.
      * split; [exact C1|]. intros [->|Hi]; [rewrite res_eqb_refl in E; discriminate|contradiction].
    + intro r'. unfold releaseAll in B9. rewrite B9. apply A9.
Qed.

Lemma addWaiting_spec st r x :
  QInv st -> In x (e_pend st) -> In r (needs P x) ->
  let st' := addWaiting st r x in
  QInv st' /\ sameall st st' /\ e_nodes st' = e_nodes st /\ e_pend st' = e_pend st /\
  e_chg st' = e_chg st /\ (forall r', holder st' r' = holder st r') /\
  (forall r', waiters st' r' = if res_eqb r' r then (if memb x (waiters st r) then waiters st r else waiters st r ++ [x]) else waiters st r').
Proof.
  intros H Hx Hr. unfold addWaiting. fold (waiters st r). destruct (memb x (waiters st r)) eqn:Em.
  - cbn zeta. repeat (split; [auto using sameall_refl|]).
    intro r'; destruct (res_eqb r' r) eqn:E; [apply res_eqb_eq in E; now subst|reflexivity].
  - apply memb_nIn in Em. cbn zeta.
    assert (Hh : forall r', r_holder (updr (e_res st) r (mkRes (r_holder (e_res st r)) (waiters st r ++ [x])) r') = holder st r').
    { intro r'; unfold updr; destruct (res_eqb r' r) eqn:E; [apply res_eqb_eq in E; now subst|reflexivity]. }
    split; [|split; [apply set_res_sameall; exact Hh|]].
    + pose proof H as []. apply set_res_QInv; trivial.
      * intros r' n. unfold updr; destruct (res_eqb r' r) eqn:E; [|apply q_wait0].
        apply res_eqb_eq in E; subst; cbn. rewrite in_snoc. intros [Hi | ->]; [apply (q_wait0 r n Hi)|auto].
      * intros r'. unfold updr; destruct (res_eqb r' r) eqn:E; [|apply q_ndw0]. cbn. apply NoDup_snoc; auto.
      * intros r' n. rewrite Hh. apply q_holder0.
    + repeat (split; [auto|]). intro r'. unfold waiters at 1; cbn. unfold updr.
      destruct (res_eqb r' r); reflexivity.
Qed.

Lemma removeWaiting_spec st r x :
  let st' := removeWaiting st r x in
  e_nodes st' = e_nodes st /\ e_pend st' = e_pend st /\ e_chg st' = e_chg st /\
  e_cand st' = e_cand st /\ e_fin st' = e_fin st /\ e_errs st' = e_errs st /\
  (forall r', holder st' r' = holder st r') /\
  (forall r', waiters st' r' = if res_eqb r' r then rem1 x (waiters st r) else waiters st r').
Proof.
  cbn zeta. unfold removeWaiting. repeat (split; [reflexivity|]). split.
  - intro r'. unfold holder; cbn; unfold updr. destruct (res_eqb r' r) eqn:E; [apply res_eqb_eq in E; now subst|reflexivity].
  - intro r'. unfold waiters; cbn; unfold updr. destruct (res_eqb r' r); reflexivity.
Qed.

Lemma acquire_spec st r x :
  QInv st -> In x (e_pend st) -> In r (needs P x) ->
  let st' := fst (acquire st r x) in let ok := snd (acquire st r x) in
  QInv st' /\ sameexc x st st' /\ e_nodes st' = e_nodes st /\ e_pend st' = e_pend st /\
  e_chg st' = e_chg st /\
  (forall r', holder st' r' = if ok then (if res_eqb r' r then Some x else holder st r') else holder st r') /\
  (ok = true <-> holder st r = None) /\
  (forall r', waiters st' r' =
     if res_eqb r' r then (if ok then rem1 x (waiters st r)
                           else if memb x (waiters st r) then waiters st r else waiters st r ++ [x])
     else waiters st r').
Proof.
  intros H Hx Hr. unfold acquire. fold (holder st r). destruct (holder st r) as [h|] eqn:Eh; cbn zeta; cbn [fst snd].
  - destruct (addWaiting_spec st r x H Hx Hr) as (A & B & C & D & E & F & G).
    split; [exact A|]. split; [now apply sameall_exc|]. repeat (split; [assumption|]).
    split; [split; discriminate|]. exact G.
  - set (st1 := set_res st (updr (e_res st) r (mkRes (Some x) (r_waiters (e_res st r))))).
    pose proof (removeWaiting_spec st1 r x) as (_ & _ & _ & _ & _ & _ & Hh & Hw). cbn zeta in *.
    assert (Hh1 : forall r', holder st1 r' = if res_eqb r' r then Some x else holder st r').
    { intro r'. unfold holder, st1; cbn; unfold updr. destruct (res_eqb r' r); reflexivity. }
    assert (Hw1 : forall r', waiters st1 r' = waiters st r').
    { intro r'. unfold waiters, st1; cbn; unfold updr. destruct (res_eqb r' r) eqn:E; [apply res_eqb_eq in E; now subst|reflexivity]. }
    split; [|split].
    + pose proof H as []. unfold removeWaiting.
      apply (set_res_QInv st); trivial.
      * intros r' n. change (In n (waiters (removeWaiting st1 r x) r') -> In n (e_pend st) /\ In r' (needs P n)).
        rewrite Hw, !Hw1. destruct (res_eqb r' r) eqn:E; [|apply q_wait0].
        apply res_eqb_eq in E; subst. intro Hi; apply rem1_In in Hi. exact (q_wait0 r n Hi).
      * intros r'. change (NoDup (waiters (removeWaiting st1 r x) r')). rewrite Hw, !Hw1.
        destruct (res_eqb r' r) eqn:E; [|apply q_ndw0]. apply rem1_NoDup, q_ndw0.
      * intros r' n. change (holder (removeWaiting st1 r x) r' = Some n -> In r' (needs P n)). rewrite Hh, Hh1.
        destruct (res_eqb r' r) eqn:E; [|apply q_holder0]. apply res_eqb_eq in E; subst. congruence.
    + intros n Hn. constructor; try reflexivity. intro r'. rewrite Hh, Hh1.
      destruct (res_eqb r' r) eqn:E; [|tauto]. apply res_eqb_eq in E; subst. rewrite Eh. intuition congruence.
    + repeat (split; [reflexivity|]). split; [intro r'; now rewrite Hh, Hh1|]. split; [tauto|].
      intro r'. rewrite Hw, !Hw1. reflexivity.
Qed.

Lemma QInv_fail_anc st n : QInv st -> QInv (fail st (EAncestorHolds n)).
Proof. intro H; apply QInv_fail; cbn; auto. Qed.

Lemma acquireAll_spec x rs : forall st,
  QInv st -> In x (e_pend st) -> (forall r, In r rs -> In r (needs P x)) ->
  let st' := fst (acquireAll P st x rs) in let ok := snd (acquireAll P st x rs) in
  QInv st' /\ sameexc x st st' /\ e_nodes st' = e_nodes st /\ e_pend st' = e_pend st /\
  e_chg st' = e_chg st /\
  (forall r, holder st r = Some x -> holder st' r = Some x) /\
  (forall r, holder st' r = Some x -> holder st r = Some x \/ In r rs) /\
  (ok = true -> forall r, In r rs -> holder st' r = Some x).
Proof.
  induction rs as [|r rs IH]; intros st H Hx Hr; cbn [acquireAll].
  - cbn. repeat (split; [auto using sameexc_refl|]). intros _ r [].
  - destruct (acquire_spec st r x H Hx (Hr r (or_introl eq_refl))) as (A1 & A2 & A3 & A4 & A5 & A6 & A7 & A8).
    destruct (acquire st r x) as [st1 ok] eqn:Ea. cbn [fst snd] in *. destruct ok.
    + destruct (IH st1 A1) as (B1 & B2 & B3 & B4 & B5 & B6 & B7 & B8); [now rewrite A4|intros; apply Hr; now right|].
      cbn zeta in *. split; [exact B1|]. split; [eapply sameexc_trans; eassumption|].
      split; [congruence|]. split; [congruence|]. split; [congruence|]. split; [|split].
      * intros r' Hh. apply B6. rewrite A6. destruct (res_eqb r' r); auto.
      * intros r' Hh. destruct (B7 r' Hh) as [Hh'|Hi]; [|right; now right].
        rewrite A6 in Hh'. destruct (res_eqb r' r) eqn:E; [apply res_eqb_eq in E; subst; right; now left|now left].
      * intros Hok r' [<-|Hi]; [|now apply B8].
        apply B6. rewrite A6, res_eqb_refl. reflexivity.
    + assert (Hf : forall s, s = st1 \/ s = fail st1 (EAncestorHolds x) ->
         QInv s /\ sameexc x st s /\ e_nodes s = e_nodes st /\ e_pend s = e_pend st /\ e_chg s = e_chg st /\
         (forall r', holder s r' = holder st r')).
      { intros s [-> | ->].
        - repeat (split; [assumption|]). intro; now rewrite A6.
        - split; [now apply QInv_fail_anc|]. split; [eapply sameexc_trans; [eassumption|]; apply sameall_exc, sameall_fail|].
          repeat (split; [assumption|]). intro; now rewrite <- A6. }
      cbn [fst snd].
      set (s := match r_holder (e_res st1 r) with
            | Some h => if memb h (p_anc P x) then fail st1 (EAncestorHolds x) else st1
            | None => st1 end).
      assert (Hs : s = st1 \/ s = fail st1 (EAncestorHolds x)).
      { unfold s. destruct (r_holder (e_res st1 r)) as [h|]; [destruct (memb h (p_anc P x))|]; auto. }
      clearbody s. destruct (Hf s Hs) as (B1 & B2 & B3 & B4 & B5 & B6).
      cbn zeta. repeat (split; [assumption|]). split; [intros; rewrite B6; auto|]. split; [intros r'; rewrite B6; auto|discriminate].
Qed.

Lemma backOff_spec x rs : forall st,
  QInv st -> In x (e_pend st) -> (forall r, In r rs -> In r (needs P x)) ->
  let st' := backOff st x rs in
  QInv st' /\ sameexc x st st' /\ (forall n, core st' n = core st n) /\ e_pend st' = e_pend st /\
  e_chg st' = e_chg st /\
  (forall r, holder st' r = if existsb (res_eqb r) rs
                            then match holder st r with Some h => if Nat.eqb h x then None else Some h | None => None end
                            else holder st r) /\
  (forall r, In r rs -> In x (waiters st' r)) /\
  (forall r n, In n (waiters st r) -> In n (waiters st' r)).
Proof.
  induction rs as [|r rs IH]; intros st H Hx Hr; cbn.
  - split; [exact H|]. split; [apply sameexc_refl|]. do 4 (split; [reflexivity|]). split; [intros r Hf; destruct Hf|auto].
  - set (st1 := match r_holder (e_res st r) with Some h => if Nat.eqb h x then release st r x else st | None => st end).
    assert (H1 : QInv st1 /\ sameexc x st st1 /\ (forall n, core st1 n = core st n) /\ e_pend st1 = e_pend st /\
       e_chg st1 = e_chg st /\ (forall r', waiters st1 r' = waiters st r') /\
       (forall r', holder st1 r' = if res_eqb r' r then match holder st r with Some h => if Nat.eqb h x then None else Some h | None => None end else holder st r')).
    { unfold st1. fold (holder st r). destruct (holder st r) as [h|] eqn:Eh.
      - destruct (Nat.eqb_spec h x) as [->|Hne].
        + destruct (release_spec st r x H) as (A1 & A2 & A3 & A4 & A5 & A6 & A7 & A9 & A8). cbn zeta in *.
          repeat (split; [assumption|]). intro r'; rewrite A8, Eh, Nat.eqb_refl; reflexivity.
        + repeat (split; [auto using sameexc_refl|]). intro r'. destruct (res_eqb r' r) eqn:E; [|reflexivity].
          apply res_eqb_eq in E; subst. exact Eh.
      - repeat (split; [auto using sameexc_refl|]). intro r'. destruct (res_eqb r' r) eqn:E; [|reflexivity].
        apply res_eqb_eq in E; subst. exact Eh. }
    clearbody st1. destruct H1 as (A1 & A2 & A3 & A4 & A5 & A6 & A7).
    destruct (addWaiting_spec st1 r x A1) as (B1 & B2 & B3 & B4 & B5 & B6 & B7); [now rewrite A4|apply Hr; now left|].
    cbn zeta in *. set (st2 := addWaiting st1 r x) in *. clearbody st2.
    destruct (IH st2 B1) as (C1 & C2 & C3 & C4 & C5 & C6 & C7 & C8); [rewrite B4, A4; exact Hx|intros; apply Hr; now right|].
    unfold backOff in *. cbn zeta in *.
    split; [exact C1|]. split; [eapply sameexc_trans; [exact A2|]; eapply sameexc_trans; [apply sameall_exc, B2|exact C2]|].
    split. { intro n. rewrite C3. unfold core at 1. rewrite B3. apply A3. }
    split; [congruence|]. split; [congruence|]. split; [|split].
    + intro r'. rewrite C6, !B6, !A7.
      destruct (res_eqb r' r) eqn:E; cbn [orb]; [|destruct (existsb (res_eqb r') rs); reflexivity].
      apply res_eqb_eq in E; subst. destruct (existsb (res_eqb r) rs); [|reflexivity].
      destruct (holder st r) as [hh|]; [|reflexivity].
      destruct (Nat.eqb hh x) eqn:Ehh; [reflexivity|]. now rewrite Ehh.
    + intros r' [<-|Hi]; [|now apply C7]. apply C8. rewrite B7, res_eqb_refl.
      destruct (memb x (waiters st1 r)) eqn:Em; [now apply memb_In|]. rewrite in_snoc; auto.
    + intros r' n Hi. apply C8. rewrite B7, !A6. destruct (res_eqb r' r) eqn:E; [|exact Hi].
      apply res_eqb_eq in E; subst. destruct (memb x (waiters st r)); [exact Hi|]. rewrite in_snoc; auto.
Qed.

Lemma mutexes_needs n r : In r (mutexes P n) -> In r (needs P n).
Proof. unfold needs; rewrite in_app_iff; auto. Qed.
Lemma needs_var n : isAssignment P n = true -> In (RVar (p_var P n)) (needs P n).
Proof. unfold needs; intros ->; rewrite in_app_iff; cbn; auto. Qed.

Lemma tryAcquire_spec st x :
  QInv st -> In x (e_pend st) ->
  let st' := fst (tryAcquire P st x) in let ok := snd (tryAcquire P st x) in
  QInv st' /\ sameexc x st st' /\ (forall n, core st' n = core st n) /\ e_pend st' = e_pend st /\
  e_chg st' = e_chg st /\ (ok = true -> qs st' x = qs st x) /\
  (ok = true -> forall r, In r (needs P x) -> holder st' r = Some x).
Proof.
  intros H Hx. unfold tryAcquire.
  destruct (acquireAll_spec x (mutexes P x) st H Hx (mutexes_needs x)) as (A1 & A2 & A3 & A4 & A5 & A6 & A7 & A8).
  destruct (acquireAll P st x (mutexes P x)) as [st1 ok1]. cbn [fst snd] in *.
  set (pr := if isAssignment P x then
      if ok1 then acquire st1 (RVar (p_var P x)) x
      else (addWaiting st1 (RVar (p_var P x)) x, false)
    else (st1, ok1)).
  assert (HB : QInv (fst pr) /\ sameexc x st1 (fst pr) /\ e_nodes (fst pr) = e_nodes st1 /\ e_pend (fst pr) = e_pend st1 /\
    e_chg (fst pr) = e_chg st1 /\ (forall r, holder st1 r = Some x -> holder (fst pr) r = Some x) /\
    (snd pr = true -> ok1 = true /\ (isAssignment P x = true -> holder (fst pr) (RVar (p_var P x)) = Some x))).
  { unfold pr. destruct (isAssignment P x) eqn:Ei.
    - destruct ok1.
      + destruct (acquire_spec st1 (RVar (p_var P x)) x A1) as (B1 & B2 & B3 & B4 & B5 & B6 & B7 & B8);
          [now rewrite A4|now apply needs_var|]. cbn zeta in *.
        repeat (split; [assumption|]). split.
        * intros r Hh. rewrite B6. destruct (snd _); [|exact Hh]. destruct (res_eqb r _); auto.
        * intro Hok. split; [reflexivity|]. intros _. rewrite B6, Hok, res_eqb_refl. reflexivity.
      + destruct (addWaiting_spec st1 (RVar (p_var P x)) x A1) as (B1 & B2 & B3 & B4 & B5 & B6 & B7);
          [now rewrite A4|now apply needs_var|]. cbn zeta in *. cbn [fst snd].
        split; [exact B1|]. split; [now apply sameall_exc|]. repeat (split; [assumption|]).
        split; [intros r; now rewrite B6|discriminate].
    - cbn [fst snd]. split; [exact A1|]. split; [apply sameexc_refl|]. repeat (split; [reflexivity|]).
      split; [auto|]. intros ->. split; [reflexivity|discriminate]. }
  clearbody pr. destruct pr as [st2 ok2]; cbn [fst snd] in *.
  destruct HB as (B1 & B2 & B3 & B4 & B5 & B6 & B7).
  destruct ok2.
  - destruct (B7 eq_refl) as [-> Hv]. split; [exact B1|]. split; [eapply sameexc_trans; eassumption|].
    split; [intro n; unfold core; now rewrite B3, A3|]. split; [congruence|]. split; [congruence|]. split.
    { intros _. unfold qs; now rewrite B3, A3. }
    intros _ r Hr. unfold needs in Hr. rewrite in_app_iff in Hr. destruct Hr as [Hr|Hr].
    + apply B6. now apply A8.
    + destruct (isAssignment P x); [|destruct Hr]. destruct Hr as [<-|[]]. now apply Hv.
  - destruct (backOff_spec x (mutexes P x) st2 B1) as (C1 & C2 & C3 & C4 & C5 & _); [congruence|apply mutexes_needs|].
    cbn zeta in *. split; [exact C1|]. split; [eapply sameexc_trans; [exact A2|]; eapply sameexc_trans; eassumption|].
    split; [intro n; rewrite C3; unfold core; now rewrite B3, A3|]. split; [congruence|]. split; [congruence|].
    split; discriminate.
Qed.

(** removeWaiting folded over a list of resources *)
Lemma removeWaitings_spec x rs : forall st,
  let st' := fold_left (fun st r => removeWaiting st r x) rs st in
  e_nodes st' = e_nodes st /\ e_pend st' = e_pend st /\ e_chg st' = e_chg st /\
  e_cand st' = e_cand st /\ e_fin st' = e_fin st /\ e_errs st' = e_errs st /\
  (forall r, holder st' r = holder st r) /\
  ((forall r, NoDup (waiters st r)) ->
   (forall r, NoDup (waiters st' r)) /\
   (forall r n, In n (waiters st' r) -> In n (waiters st r)) /\
   (forall r n, n <> x -> (In n (waiters st' r) <-> In n (waiters st r))) /\
   (forall r, In r rs -> ~ In x (waiters st' r))).
Proof.
  induction rs as [|r rs IH]; intros st; cbn.
  - repeat (split; [reflexivity|]). intros Hn. split; [exact Hn|]. split; [auto|]. split; [tauto|]. intros r [].
  - destruct (removeWaiting_spec st r x) as (A1 & A2 & A3 & A4 & A5 & A6 & A7 & A8).
    destruct (IH (removeWaiting st r x)) as (B1 & B2 & B3 & B4 & B5 & B6 & B7 & B8). cbn zeta in *.
    split; [congruence|]. split; [congruence|]. split; [congruence|]. split; [congruence|].
    split; [congruence|]. split; [congruence|]. split; [intro; now rewrite B7|].
    intro Hn. destruct B8 as (C1 & C2 & C3 & C4).
    { intro r'. rewrite A8. destruct (res_eqb r' r); [apply rem1_NoDup|]; apply Hn. }
    split; [exact C1|].
    split.
    { intros r' n Hi. apply C2 in Hi. rewrite A8 in Hi.
      destruct (res_eqb r' r) eqn:E; [apply res_eqb_eq in E; subst; now apply rem1_In in Hi|exact Hi]. }
    split.
    { intros r' n Hne. rewrite C3 by exact Hne. rewrite A8.
      destruct (res_eqb r' r) eqn:E; [apply res_eqb_eq in E; subst; now apply rem1_In_other|reflexivity]. }
    intros r' [<-|Hi]; [|now apply C4].
    intro Hi. apply C2 in Hi. rewrite A8, res_eqb_refl in Hi. revert Hi; apply rem1_gone, Hn.
Qed.

Lemma releaseReservations_eq st x :
  releaseReservations P st x =
  fold_left (fun st r => removeWaiting st r x)
     ((if isAssignment P x then [RVar (p_var P x)] else []) ++ mutexes P x) st.
Proof. unfold releaseReservations. rewrite fold_left_app. destruct (isAssignment P x); reflexivity. Qed.

Lemma removePending_spec st x :
  QInv st -> In x (e_pend st) ->
  let st' := removePending P st x in
  QInv st' /\ sameexc x st st' /\ (forall n, core st' n = core st n) /\ e_chg st' = e_chg st /\
  e_pend st' = rem1 x (e_pend st) /\ qs st' x = QNone /\ (forall r, holder st' r = holder st r) /\
  ~ In x (e_pend st').
Proof.
  intros H Hx. unfold removePending.
  set (st1 := setQs (set_queues st (e_cand st) (rem1 x (e_pend st)) (e_chg st) (e_fin st)) x QNone).
  rewrite releaseReservations_eq.
  destruct (removeWaitings_spec x ((if isAssignment P x then [RVar (p_var P x)] else []) ++ mutexes P x) st1)
    as (A1 & A2 & A3 & A4 & A5 & A6 & A7 & A8). cbn zeta in *.
  set (st' := fold_left _ _ st1) in *. clearbody st'.
  pose proof H as [].
  destruct A8 as (B1 & B2 & B2' & B3). { intro r; apply q_ndw0. }
  assert (Hq : forall n, qs st' n = if Nat.eqb n x then QNone else qs st n).
  { intro n. unfold qs at 1. rewrite A1. change (qs st1 n = if Nat.eqb n x then QNone else qs st n).
    unfold st1. rewrite qs_setQs. reflexivity. }
  assert (Hc : forall n, core st' n = core st n).
  { intro n. unfold core at 1; rewrite A1. apply (core_setQs (set_queues st (e_cand st) (rem1 x (e_pend st)) (e_chg st) (e_fin st))). }
  cbn in A2, A3, A4, A5, A6.
  assert (Hneed : forall r, In x (waiters st' r) -> False).
  { intros r Hi. pose proof (B2 r x Hi) as Hi'. apply q_wait0 in Hi'. destruct Hi' as [_ Hr].
    apply (B3 r); [|exact Hi]. unfold needs in Hr. rewrite in_app_iff in *. tauto. }
  destruct (q_pend0 x Hx) as [Hpq _].
  assert (Hnc : ~ In x (e_cand st)) by (rewrite q_cand0; unfold isPendingQ in Hpq; intuition congruence).
  assert (Hnf : ~ In x (e_fin st)) by (intro Hf; apply q_fin0 in Hf; unfold isPendingQ in Hpq; intuition congruence).
  assert (Hng : ~ In x (e_chg st)) by (intro Hf; apply q_chg0 in Hf; tauto).
  split; [|split; [|repeat (split; [assumption || (rewrite A3; reflexivity)|])]].
  - constructor; rewrite ?A2, ?A3, ?A4, ?A5, ?A6; auto.
    + apply rem1_NoDup; assumption.
    + intro n. rewrite Hq. eqbs; [intuition congruence|apply q_cand0].
    + intros n Hn. rewrite Hq. eqbs.
      * exfalso; revert Hn; now apply rem1_gone.
      * apply rem1_In in Hn; auto.
    + intros n. rewrite Hq. eqbs; [intuition congruence|]. intro Hn. apply rem1_In_other; auto.
    + intros n. rewrite Hq. eqbs; [intros [|]; congruence|]. apply q_trans0.
    + intros n Hn. rewrite Hq. eqbs; [contradiction|]. destruct (q_chg0 n Hn) as [X Y]. split; [exact X|].
      intro Hi; apply rem1_In in Hi; contradiction.
    + intros n Hn. rewrite Hq. eqbs; [contradiction|auto].
    + intros r n Hi. destruct (Nat.eq_dec n x) as [->|Hne]; [exfalso; eauto|].
      apply B2 in Hi. destruct (q_wait0 r n Hi). split; [apply rem1_In_other; auto|assumption].
    + intros r n. rewrite A7. apply q_holder0.
  - intros n Hne. constructor; auto.
    + now rewrite A3.
    + rewrite A2. apply rem1_In_other; auto.
    + intro r; rewrite A7; reflexivity.
    + rewrite Hq. eqbs; [congruence|tauto].
  - split; [rewrite Hq, Nat.eqb_refl; reflexivity|].
    split; [intro r; rewrite A7; reflexivity|]. rewrite A2. now apply rem1_gone.
Qed.

Lemma addStateChange_spec st x :
  QInv st -> qs st x = QNone ->
  let st' := addStateChange st x in
  QInv st' /\ sameexc x st st' /\ (forall n, core st' n = core st n) /\
  e_chg st' = e_chg st ++ [x] /\ e_pend st' = e_pend st /\ qs st' x = QTransition /\
  ~ In x (e_pend st') /\ (forall r, holder st' r = holder st r).
Proof.
  intros H Hq. unfold addStateChange. rewrite Hq. cbn zeta.
  pose proof H as [].
  assert (Hnc : ~ In x (e_cand st)) by (rewrite q_cand0; congruence).
  assert (Hnf : ~ In x (e_fin st)) by (intro Hf; apply q_fin0 in Hf; congruence).
  assert (Hnp : ~ In x (e_pend st)) by (intro Hi; apply q_pend0 in Hi; unfold isPendingQ in Hi; intuition congruence).
  assert (Hng : ~ In x (e_chg st)) by (intro Hi; apply q_chg0 in Hi; unfold isTransQ in Hi; intuition congruence).
  assert (HQ : forall n, qs (set_queues (setQs st x QTransition) (e_cand st) (e_pend st) (e_chg st ++ [x]) (e_fin st)) n
               = if Nat.eqb n x then QTransition else qs st n).
  { intro n. change (qs (setQs st x QTransition) n = if Nat.eqb n x then QTransition else qs st n). apply qs_setQs. }
  split; [|split; [|repeat (split; [reflexivity||auto|])]].
  - constructor; cbn; auto.
    + now apply NoDup_snoc.
    + intro n. rewrite HQ. eqbs; [intuition congruence|apply q_cand0].
    + intros n Hn. rewrite HQ. eqbs; [contradiction|auto].
    + intros n. rewrite HQ. eqbs; [intuition congruence|auto].
    + intros n. rewrite HQ. rewrite in_snoc. eqbs; auto.
    + intros n. rewrite HQ. rewrite in_snoc. unfold isTransQ. eqbs; [tauto|]. intros [Hi|Hi]; [|congruence].
      apply q_chg0; exact Hi.
    + intros n Hn. rewrite HQ. eqbs; [contradiction|auto].
  - intros n Hne. constructor; cbn; try tauto.
    + apply (core_setQs st x QTransition n).
    + rewrite in_snoc; intuition congruence.
    + rewrite HQ. eqbs; [congruence|tauto].
  - intro n. apply (core_setQs st x QTransition n).
  - rewrite HQ, Nat.eqb_refl; reflexivity.
  - reflexivity.
Qed.

Lemma addPending_spec st x :
  QInv st -> qs st x = QNone -> acquiresResources P x = true ->
  let st' := addPending P st x in
  QInv st' /\ sameexc x st st' /\ (forall n, core st' n = core st n) /\
  e_chg st' = e_chg st /\ In x (e_pend st') /\ qs st' x = QPendingTry /\ (forall r, holder st' r = holder st r).
Proof.
  intros H Hq Ha. unfold addPending. cbn zeta.
  pose proof H as [].
  assert (Hnc : ~ In x (e_cand st)) by (rewrite q_cand0; congruence).
  assert (Hnf : ~ In x (e_fin st)) by (intro Hf; apply q_fin0 in Hf; congruence).
  assert (Hnp : ~ In x (e_pend st)) by (intro Hi; apply q_pend0 in Hi; unfold isPendingQ in Hi; intuition congruence).
  assert (Hng : ~ In x (e_chg st)) by (intro Hi; apply q_chg0 in Hi; unfold isTransQ in Hi; intuition congruence).
  assert (HQ : forall n, qs (set_queues (setQs st x QPendingTry) (e_cand st) (insertPrio P x (e_pend st)) (e_chg st) (e_fin st)) n
               = if Nat.eqb n x then QPendingTry else qs st n).
  { intro n. change (qs (setQs st x QPendingTry) n = if Nat.eqb n x then QPendingTry else qs st n). apply qs_setQs. }
  split; [|split; [|repeat (split; [reflexivity||auto|])]].
  - constructor; cbn; auto.
    + now apply insertPrio_NoDup.
    + intro n. rewrite HQ. eqbs; [intuition congruence|apply q_cand0].
    + intros n. rewrite HQ, insertPrio_In. eqbs; [unfold isPendingQ; tauto|]. intros [Hi|Hi]; [congruence|now apply q_pend0].
    + intros n. rewrite HQ, insertPrio_In. eqbs; auto.
    + intros n. rewrite HQ. unfold isTransQ. eqbs; [intuition congruence|auto].
    + intros n Hn. rewrite HQ. rewrite insertPrio_In. eqbs; [contradiction|]. destruct (q_chg0 n Hn). split; [assumption|tauto].
    + intros n Hn. rewrite HQ. eqbs; [contradiction|auto].
    + intros r n Hi. rewrite insertPrio_In. destruct (q_wait0 r n Hi); auto.
  - intros n Hne. constructor; cbn; try tauto.
    + apply (core_setQs st x QPendingTry n).
    + rewrite insertPrio_In; intuition congruence.
    + rewrite HQ. eqbs; [congruence|tauto].
  - intro n. apply (core_setQs st x QPendingTry n).
  - cbn. rewrite insertPrio_In; auto.
  - rewrite HQ, Nat.eqb_refl; reflexivity.
  - reflexivity.
Qed.

(** setting the status to QUEUE_PENDING, as resourceCheckEligible does even after
    having moved the node elsewhere *)
Lemma setPending_QInv st x :
  QInv st -> qs st x <> QCheck -> qs st x <> QDelete -> QInv (setQs st x QPending).
Proof.
  intros H Hc Hd. pose proof H as []. apply QInv_setQs; trivial; try (unfold isPendingQ, isTransQ; intuition congruence).
  intro Hf; apply q_fin0 in Hf; congruence.
Qed.

(** ---------- getDestNode ---------- *)
Lemma getDestNode_spec st x :
  QInv st -> CInv st x -> ~ In x (e_chg st) ->
  let st' := fst (getDestNode P st x) in let go := snd (getDestNode P st x) in
  QInv st' /\ sameexc x st st' /\ e_chg st' = e_chg st /\ e_pend st' = e_pend st /\
  (forall n, qs st' n = qs st n) /\ (forall r, holder st' r = holder st r) /\
  state st' x = state st x /\ k_out (core st' x) = k_out (core st x) /\ k_fail (core st' x) = k_fail (core st x) /\
  (go = false -> k_nextOut (core st' x) = NO_OUTCOME /\ k_nextFail (core st' x) = NO_FAILURE /\ next st' x = None) /\
  (go = true -> ready (p_type P x) (core st' x)) /\
  (go = true -> next st' x = Some EXECUTING -> state st x = WAITING /\
     k_nextOut (core st' x) = NO_OUTCOME /\ k_nextFail (core st' x) = NO_FAILURE).
Proof.
  intros H HC Hng. unfold getDestNode.
  destruct (coreGetDest (p_type P x) (option_map (state st) (parent P x)) (condsOf P st x) (core st x)) as [k b] eqn:Eg.
  cbn [fst snd]. cbn zeta.
  pose proof HC as []. destruct (c_clear0 Hng) as [Hno Hnf].
  pose proof (getDest_ok (p_type P x) (state st x) (k_out (core st x)) (k_fail (core st x))
    (option_map (state st) (parent P x)) (condsOf P st x) c_has0 c_coh0) as Hg.
  unfold coreGetDest in Eg. fold (state st x) in Eg.
  assert (Hk : core (setCore st x k) x = k) by (rewrite core_setCore, Nat.eqb_refl; reflexivity).
  split.
  { pose proof H as []. constructor; auto; intros n; rewrite ?qs_setCore; auto. }
  split.
  { intros n Hne. constructor; unfold holder; cbn; rewrite ?core_setCore, ?qs_setCore; try tauto.
    eqbs; [congruence|reflexivity]. }
  split; [reflexivity|]. split; [reflexivity|]. split; [intro; apply qs_setCore|]. split; [reflexivity|].
  unfold state, next in *. rewrite Hk.
  destruct (getDest (p_type P x) (k_state (core st x)) (k_fail (core st x)) (option_map (fun n => k_state (core st n)) (parent P x))
             (condsOf P st x)) as [|s' o' f'|] eqn:Ed; inversion Eg; subst; cbn.
  - do 3 (split; [reflexivity|]). split; [auto|]. split; discriminate.
  - repeat (split; [reflexivity|]). split; [discriminate|]. split.
    + intros _. unfold ready; cbn. exists s'. split; [reflexivity|].
      destruct Hg as (G1 & G2 & G3 & G4). unfold go_ok. cbn.
      rewrite Hno, Hnf. cbn in G4. auto.
    + intros _ He. inversion He; subst s'. rewrite Hno, Hnf.
      clear -Ed Hg. destruct Hg as (G1 & _ & _ & _).
      destruct (k_state (core st x)) eqn:Es; cbn in G1;
        try (destruct (p_type P x); cbn in G1; intuition congruence).
      split; [reflexivity|]. unfold getDest, destFromWaiting in Ed.
      repeat match type of Ed with context [if ?b then _ else _] => destruct b end; inversion Ed; subst; cbn; auto.
  - destruct Hg.
Qed.

(** ---------- checkOne ---------- *)
Definition Inv st : Prop := QInv st /\ forall n, CInv st n.

Lemma popCand_spec st x cs :
  QInv st -> e_cand st = x :: cs ->
  let st0 := setQs (set_queues st cs (e_pend st) (e_chg st) (e_fin st)) x QNone in
  QInv st0 /\ sameall st st0 /\ qs st0 x = QNone.
Proof.
  intros H Ec. cbn zeta. pose proof H as [].
  set (st0 := setQs _ _ _).
  assert (HQ : forall n, qs st0 n = if Nat.eqb n x then QNone else qs st n).
  { intro n. unfold st0. rewrite qs_setQs. reflexivity. }
  assert (Hqx : qs st x = QCheck) by (apply q_cand0; rewrite Ec; now left).
  assert (Hxc : ~ In x cs) by (rewrite Ec in q_ndc0; inversion q_ndc0; auto).
  assert (Hp : ~ In x (e_pend st)) by (intro Hi; apply q_pend0 in Hi; unfold isPendingQ in Hi; intuition congruence).
  assert (Hg : ~ In x (e_chg st)) by (intro Hi; apply q_chg0 in Hi; unfold isTransQ in Hi; intuition congruence).
  assert (Hf : ~ In x (e_fin st)) by (intro Hi; apply q_fin0 in Hi; congruence).
  split; [|split; [|rewrite HQ, Nat.eqb_refl; reflexivity]].
  - constructor; cbn; auto.
    + rewrite Ec in q_ndc0; inversion q_ndc0; auto.
    + intro n. rewrite HQ. eqbs; [intuition congruence|]. rewrite <- q_cand0, Ec. cbn. intuition congruence.
    + intros n Hn. rewrite HQ. eqbs; [contradiction|auto].
    + intros n. rewrite HQ. eqbs; [intuition congruence|auto].
    + intros n. rewrite HQ. unfold isTransQ. eqbs; [intuition congruence|auto].
    + intros n Hn. rewrite HQ. eqbs; [contradiction|auto].
    + intros n Hn. rewrite HQ. eqbs; [contradiction|auto].
  - intro n. constructor; unfold holder; cbn; try tauto.
    + apply (core_setQs (set_queues st cs (e_pend st) (e_chg st) (e_fin st))).
    + rewrite HQ. eqbs; [intuition congruence|tauto].
Qed.

Lemma del_none st x : CInv st x -> qs st x <> QDelete -> ~ (parent P x = None /\ state st x = FINISHED).
Proof. intros [] H1 H2. apply c_del0 in H2. contradiction. Qed.

Lemma not_acquires_needs x : acquiresResources P x = false -> needs P x = [].
Proof.
  unfold acquiresResources, needs, mutexes. destruct (isAssignment P x); cbn; [discriminate|].
  destruct (p_mutex P x); cbn; [reflexivity|discriminate].
Qed.

Lemma isExecuting_iff s : isExecuting s = true <-> s = Some EXECUTING.
Proof. destruct s as [[]|]; cbn; split; congruence. Qed.

Lemma CInv_idle st st' x :
  CInv st x -> ~ In x (e_chg st') -> ~ In x (e_pend st') -> qs st' x <> QDelete -> qs st x <> QDelete ->
  state st' x = state st x -> k_out (core st' x) = k_out (core st x) -> k_fail (core st' x) = k_fail (core st x) ->
  k_nextOut (core st' x) = NO_OUTCOME /\ k_nextFail (core st' x) = NO_FAILURE ->
  (forall r, holder st' r = holder st r) -> CInv st' x.
Proof.
  intros HC H1 H2 H3 H4 H5 H6 H7 H8 H9. pose proof (del_none _ _ HC H4) as Hd. destruct HC.
  constructor; rewrite ?H5, ?H6, ?H7; auto; try tauto.
  intros Hr r Hi; rewrite H9; auto.
Qed.

Lemma CInv_ready st st' x :
  CInv st x -> In x (e_chg st') -> ~ In x (e_pend st') -> qs st' x <> QDelete -> qs st x <> QDelete ->
  state st' x = state st x -> k_out (core st' x) = k_out (core st x) -> k_fail (core st' x) = k_fail (core st x) ->
  ready (p_type P x) (core st' x) ->
  (next st' x = Some EXECUTING -> forall r, In r (needs P x) -> holder st' r = Some x) ->
  (forall r, holder st r = Some x -> holder st' r = Some x) -> CInv st' x.
Proof.
  intros HC H1 H2 H3 H4 H5 H6 H7 H8 H9 H10. pose proof (del_none _ _ HC H4) as Hd. destruct HC.
  constructor; rewrite ?H5, ?H6, ?H7; auto; try tauto.
Qed.

Lemma checkOne_Inv st : Inv st -> Inv (checkOne P st).
Proof.
  intros [HQ HC]. unfold checkOne. destruct (e_cand st) as [|x cs] eqn:Ec; [split; assumption|].
  destruct (popCand_spec st x cs HQ Ec) as (A1 & A2 & A3). cbn zeta in *.
  set (st0 := setQs _ _ _) in *. clearbody st0.
  assert (HC0 : forall n, CInv st0 n) by (intro n; eapply CInv_same; [apply A2|apply HC]).
  assert (Hng : ~ In x (e_chg st0)).
  { intro Hi. apply (q_chg _ A1) in Hi. unfold isTransQ in Hi; intuition congruence. }
  assert (Hnp : ~ In x (e_pend st0)).
  { intro Hi. apply (q_pend _ A1) in Hi. unfold isPendingQ in Hi; intuition congruence. }
  destruct (getDestNode_spec st0 x A1 (HC0 x) Hng) as (B1 & B2 & B3 & B4 & B5 & B6 & B7 & B8 & B9 & B10 & B11 & B12).
  destruct (getDestNode P st0 x) as [st1 go]. cbn [fst snd] in *. cbn zeta in *.
  assert (Hq1 : qs st1 x = QNone) by (rewrite B5; exact A3).
  destruct go.
  2:{ split; [exact B1|]. intro n. destruct (Nat.eq_dec n x) as [->|Hne]; [|eapply CInv_same; [now apply B2|apply HC0]].
      destruct (B10 eq_refl) as (N1 & N2 & N3).
      apply (CInv_idle st0); auto; try congruence. }
  destruct (isExecuting (next st1 x)) eqn:Ex; cbn [andb].
  - apply isExecuting_iff in Ex. destruct (acquiresResources P x) eqn:Ea.
    + (* pending *)
      destruct (addPending_spec st1 x B1 Hq1 Ea) as (D1 & D2 & D3 & D4 & D5 & D6 & D7). cbn zeta in *.
      set (st2 := addPending P st1 x) in *. clearbody st2.
      split; [exact D1|]. intro n. destruct (Nat.eq_dec n x) as [->|Hne].
      2:{ eapply CInv_same; [apply (D2 n Hne)|]. eapply CInv_same; [now apply B2|apply HC0]. }
      destruct (B12 eq_refl Ex) as (Hw & N1 & N2).
      pose proof (del_none _ _ (HC0 x) ltac:(congruence)) as Hd. pose proof (HC0 x) as [].
      unfold state, next in *. constructor; unfold state, next; rewrite ?D3, ?D4, ?D7, ?B3, ?B7, ?B8, ?B9.
      * exact c_has0.
      * exact c_coh0.
      * tauto.
      * auto.
      * intros _; split; [exact Hw|exact Ex].
      * intros Hr r Hi. rewrite D7, B6. apply c_run0; assumption.
      * tauto.
      * split; [congruence|]. intro; tauto.
    + destruct (addStateChange_spec st1 x B1 Hq1) as (D1 & D2 & D3 & D4 & D5 & D6 & D7 & D8). cbn zeta in *.
      set (st2 := addStateChange st1 x) in *. clearbody st2.
      split; [exact D1|]. intro n. destruct (Nat.eq_dec n x) as [->|Hne].
      2:{ eapply CInv_same; [apply (D2 n Hne)|]. eapply CInv_same; [now apply B2|apply HC0]. }
      apply (CInv_ready st0); auto; unfold state, next in *; rewrite ?D3; auto; try congruence.
      * rewrite D4, in_snoc; auto.
      * rewrite (not_acquires_needs _ Ea). intros _ r [].
  - destruct (addStateChange_spec st1 x B1 Hq1) as (D1 & D2 & D3 & D4 & D5 & D6 & D7 & D8). cbn zeta in *.
    set (st2 := addStateChange st1 x) in *. clearbody st2.
    split; [exact D1|]. intro n. destruct (Nat.eq_dec n x) as [->|Hne].
    2:{ eapply CInv_same; [apply (D2 n Hne)|]. eapply CInv_same; [now apply B2|apply HC0]. }
    apply (CInv_ready st0); auto; unfold state, next in *; rewrite ?D3; auto; try congruence.
    * rewrite D4, in_snoc; auto.
    * intros He; rewrite He in Ex; discriminate.
Qed.

End Inv.
