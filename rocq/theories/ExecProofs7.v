(** Extra invariants over whole runs; priority order; decisions; macro steps. *)
From Coq Require Import Sorted.
From Verif Require Export ExecProofs6.

Section Runs.
Context {W : Type} (P : plan W) (env : nat -> W -> W).
Implicit Types (st : est W).

Section JO.
Variable J : est W -> Prop.
Hypothesis J_notify : forall st n, J st -> J (notify st n).
Hypothesis J_inert : forall st st', inert st st' -> (forall e, In e (e_trace st) -> In e (e_trace st')) -> J st -> J st'.
Hypothesis J_nofin : forall st, J st -> J (set_queues st (e_cand st) (e_pend st) (e_chg st) []).

Definition isLoop (a : action) : bool := match a with ACheck | AResolve | ATransition _ _ => true | _ => false end.

Lemma act_other_J st a : isLoop a = false -> J st -> J (act env P st a).
Proof.
  assert (JN : forall l s, J s -> J (notifyAll s l)).
  { induction l as [|y l IH]; cbn; intros s H; [exact H|]. apply IH, J_notify, H. }
  intros Ha HJ. destruct a; try discriminate Ha; cbn [act].
  - unfold assignOne. destruct (e_asg st) as [|n l]; [exact HJ|]. apply JN.
    eapply J_inert; [apply log_inert|cbn; auto|]. destruct (nstate_eqb _ _).
    + eapply J_inert; [apply setAcks_inert|cbn; auto|]. eapply J_inert; [apply set_world_inert|cbn; auto|].
      eapply J_inert; [apply set_out_inert|cbn; auto|]. exact HJ.
    + eapply J_inert; [apply set_world_inert|cbn; auto|]. eapply J_inert; [apply set_out_inert|cbn; auto|]. exact HJ.
  - unfold retractOne. destruct (e_ret st) as [|n l]; [exact HJ|]. apply JN.
    eapply J_inert; [apply log_inert|cbn; auto|]. destruct (nstate_eqb _ _).
    + eapply J_inert; [apply setAcks_inert|cbn; auto|]. eapply J_inert; [apply set_world_inert|cbn; auto|].
      eapply J_inert; [apply set_out_inert|cbn; auto|]. exact HJ.
    + eapply J_inert; [apply set_world_inert|cbn; auto|]. eapply J_inert; [apply set_out_inert|cbn; auto|]. exact HJ.
  - unfold outbound. eapply J_inert; [apply set_out_inert|cbn; auto|].
    assert (F : forall (g : nat -> event) l s, J s -> J (fold_left (fun st n => log st (g n)) l s)).
    { intros g. induction l as [|y l IH]; cbn; intros s H; [exact H|]. apply IH.
      eapply J_inert; [apply log_inert|cbn; auto|exact H]. }
    apply F, F, F, HJ.
  - destruct (parent P root); [exact HJ|]. destruct (_ && _); [|exact HJ].
    apply JN, J_notify. eapply J_inert; [apply set_plans_inert|cbn; auto|exact HJ].
  - apply JN. eapply J_inert; [apply set_world_inert|cbn; auto|exact HJ].
  - destruct (p_type P n); try exact HJ. destruct (running (state st n)); [|exact HJ].
    apply JN. eapply J_inert; [apply setAcks_inert|cbn; auto|exact HJ].
  - destruct (p_type P n); try exact HJ. destruct (running (state st n)); [|exact HJ].
    apply JN. eapply J_inert; [apply setAcks_inert|cbn; auto|exact HJ].
  - destruct (p_type P n); try exact HJ. destruct (nstate_eqb (state st n) FAILING); [|exact HJ].
    apply JN. eapply J_inert; [apply setAcks_inert|cbn; auto|exact HJ].
  - unfold deleteFinished.
    assert (F : forall l s, J s -> J (fold_left (fun st n => log (set_plans st (filter (fun m => negb (Nat.eqb m n)) (e_plans st))
                                              (e_deleted st)) (EvDelete n)) l s)).
    { induction l as [|y l IH]; cbn; intros s H; [exact H|]. apply IH.
      eapply J_inert; [apply log_inert|cbn; auto|]. eapply J_inert; [apply set_plans_inert|cbn; auto|exact H]. }
    eapply J_inert; [apply set_plans_inert|cbn; auto|]. apply J_nofin, F, HJ.
Qed.
End JO.

Lemma act_HInv st a : Inv P st -> HInv st -> HInv (act env P st a).
Proof.
  intros HI HH. destruct (isLoop a) eqn:Ha.
  - destruct a; try discriminate Ha; cbn [act].
    + now apply checkOne_HInv.
    + apply (resolve_J P HInv); auto using checkEligible_HInv, tryOne_HInv.
    + now apply transitionOne_HInv.
  - apply (act_other_J HInv); auto.
    + intros s n. apply HInv_sameall; [apply notify_same|apply (quiet_incl _ _ (quiet_notify s n))].
    + intros s s' Hi Ht. apply HInv_sameall; [now apply inert_same|exact Ht].

Qed.

Lemma act_WInv st a : (forall n, NoDup (p_mutex P n)) -> Inv P st -> HInv st -> WInv P st -> WInv P (act env P st a).
Proof.
  intros Hnd HI HH HW. destruct (isLoop a) eqn:Ha.
  - destruct a; try discriminate Ha; cbn [act].
    + now apply checkOne_WInv.
    + enough (HInv (resolve P st) /\ WInv P (resolve P st)) by tauto.
      apply (resolve_J P (fun s => HInv s /\ WInv P s)); auto.
      * intros s x A [B C] D. split; [now apply checkEligible_HInv with (P := P)|now apply checkEligible_WInv].
      * intros s x A [B C] D. split; [now apply tryOne_HInv with (P := P)|now apply tryOne_WInv].
    + now apply transitionOne_WInv.
  - apply (act_other_J (WInv P)); auto.
    + intros s n H m. apply W1_notify, H.
    + apply inert_WInv.
Qed.

Lemma e0_HInv (w : W) : HInv (e0 w).
Proof. intros n r H. discriminate. Qed.
Lemma e0_WInv (w : W) : WInv P (e0 w).
Proof. intros n []. Qed.

Lemma run_HInv l w : HInv (run env P l (e0 w)).
Proof.
  assert (G : forall l st, Inv P st -> HInv st -> HInv (run env P l st)).
  { clear. induction l as [|a l IH]; cbn; intros st HI HH; [exact HH|]. apply IH; [now apply act_Inv|now apply act_HInv]. }
  apply G; [apply (e0_Inv P env)|apply e0_HInv].
Qed.
Lemma run_WInv l w : (forall n, NoDup (p_mutex P n)) -> WInv P (run env P l (e0 w)).
Proof.
  intro Hnd.
  assert (G : forall l st, Inv P st -> HInv st -> WInv P st -> WInv P (run env P l st)).
  { clear - Hnd. induction l as [|a l IH]; cbn; intros st HI HH HW; [exact HW|].
    apply IH; [now apply act_Inv|now apply act_HInv|now apply act_WInv]. }
  apply G; [apply (e0_Inv P env)|apply e0_HInv|apply e0_WInv].
Qed.

(** ---------- order of the pending queue ---------- *)
Definition lep (a b : nat) : Prop := (p_prio P a <= p_prio P b)%Z.

Lemma insertPrio_split n l : StronglySorted lep l ->
  exists l1 l2, l = l1 ++ l2 /\ insertPrio P n l = l1 ++ n :: l2 /\
    Forall (fun m => (p_prio P m <= p_prio P n)%Z) l1 /\ Forall (fun m => (p_prio P n < p_prio P m)%Z) l2.
Proof.
  induction 1 as [|x l Hl IH Hx]; cbn.
  - exists [], []. auto.
  - destruct (Z.ltb_spec (p_prio P n) (p_prio P x)).
    + exists [], (x :: l). cbn. split; [reflexivity|]. split; [reflexivity|]. split; [constructor|]. constructor; [exact H|].
      eapply Forall_impl; [|exact Hx]. unfold lep. intros; lia.
    + destruct IH as (l1 & l2 & -> & -> & A & B). exists (x :: l1), l2. cbn. auto.
Qed.
Lemma sorted_app l1 : forall l2, StronglySorted lep l1 -> StronglySorted lep l2 ->
  (forall a b, In a l1 -> In b l2 -> lep a b) -> StronglySorted lep (l1 ++ l2).
Proof.
  induction l1 as [|x l1 IH]; cbn; intros l2 H1 H2 H; [exact H2|].
  inversion H1 as [|? ? Hs Hf]; subst. constructor.
  - apply IH; auto.
  - apply Forall_app. split; [exact Hf|]. apply Forall_forall. intros; apply H; auto.
Qed.
Lemma sorted_app_inv l1 l2 : StronglySorted lep (l1 ++ l2) -> StronglySorted lep l1 /\ StronglySorted lep l2.
Proof.
  induction l1 as [|x l1 IH]; cbn; intro H; [split; [constructor|exact H]|].
  inversion H as [|? ? Hs Hf]; subst. destruct (IH Hs) as [A B]. split; [|exact B].
  constructor; [exact A|]. apply Forall_app in Hf. tauto.
Qed.
Lemma insertPrio_sorted n l : StronglySorted lep l -> StronglySorted lep (insertPrio P n l).
Proof.
  intro H. destruct (insertPrio_split n l H) as (l1 & l2 & -> & -> & A & B).
  destruct (sorted_app_inv _ _ H) as [S1 S2]. rewrite Forall_forall in A, B.
  apply sorted_app; auto.
  - constructor; [exact S2|]. apply Forall_forall. intros x Hx. unfold lep. specialize (B x Hx). lia.
  - intros a b Ha [<-|Hb]; unfold lep; [now apply A|]. specialize (A a Ha). specialize (B b Hb). lia.
Qed.

(** Subsequence. *)
Inductive subseq {A} : list A -> list A -> Prop :=
| sub_nil l : subseq [] l
| sub_keep x l l' : subseq l l' -> subseq (x :: l) (x :: l')
| sub_drop x l l' : subseq l l' -> subseq l (x :: l').
Lemma subseq_refl {A} (l : list A) : subseq l l.
Proof. induction l; constructor; auto. Qed.
Lemma subseq_trans {A} (a b c : list A) : subseq a b -> subseq b c -> subseq a c.
Proof.
  intros H1 H2. revert a H1. induction H2 as [l|x l l' H IH|x l l' H IH]; intros a H1.
  - inversion H1; subst; constructor.
  - inversion H1; subst; [constructor|constructor; auto|apply sub_drop; auto].
  - apply sub_drop; auto.
Qed.
Lemma subseq_In {A} (l l' : list A) : subseq l l' -> forall x, In x l -> In x l'.
Proof. induction 1; cbn; intros y Hy; [contradiction| |auto]. destruct Hy; auto. Qed.
Lemma rem1_subseq x l : subseq (rem1 x l) l.
Proof. induction l as [|y l IH]; cbn; [constructor|]. destruct (Nat.eqb x y); [apply sub_drop, subseq_refl|now constructor]. Qed.
Lemma subseq_sorted l l' : subseq l l' -> StronglySorted lep l' -> StronglySorted lep l.
Proof.
  induction 1 as [l|x l l' H IH|x l l' H IH]; intro S; [constructor| |].
  - inversion S as [|? ? Hs Hf]; subst. constructor; auto. rewrite Forall_forall in *. intros y Hy. apply Hf. eapply subseq_In; eauto.
  - inversion S; subst; auto.
Qed.

Lemma resolve_pend st : Inv P st -> subseq (e_pend (resolve P st)) (e_pend st).
Proof.
  intros HI.
  assert (G : forall s0, subseq (e_pend s0) (e_pend st) -> Inv P s0 -> subseq (e_pend (resolve P s0)) (e_pend st)).
  { intros s0 H0 HI0. apply (resolve_J P (fun s => subseq (e_pend s) (e_pend st))); auto.
    - intros s x A B C. destruct (checkEligible_Inv P s x A C) as (_ & D & _). cbn zeta in D.
      destruct D as [-> | ->]; [exact B|]. eapply subseq_trans; [apply rem1_subseq|exact B].
    - intros s x A B C. destruct (tryOne_Inv P s x A C) as (_ & D).
      destruct D as [-> | ->]; [exact B|]. eapply subseq_trans; [apply rem1_subseq|exact B]. }
  apply G; [apply subseq_refl|exact HI].
Qed.

(** How any action can change the pending queue. *)
Lemma act_pend st a : Inv P st ->
  subseq (e_pend (act env P st a)) (e_pend st) \/
  (exists n, ~ In n (e_pend st) /\ e_pend (act env P st a) = insertPrio P n (e_pend st)).
Proof.
  intros HI. destruct (isLoop a) eqn:Ha.
  - destruct a; try discriminate Ha; cbn [act].
    + unfold checkOne. destruct (e_cand st) as [|x cs] eqn:Ec; [left; apply subseq_refl|].
      set (st0 := setQs _ _ _).
      assert (Ep : e_pend (fst (getDestNode P st0 x)) = e_pend st).
      { unfold getDestNode. destruct (coreGetDest _ _ _ _). reflexivity. }
      destruct (getDestNode P st0 x) as [st1 go]; cbn [fst] in Ep. destruct go; [|left; rewrite Ep; apply subseq_refl].
      destruct (_ && _).
      * right. exists x. split; [|cbn; now rewrite Ep].
        intro Hi. apply (q_pend _ _ (proj1 HI)) in Hi. assert (qs st x = QCheck) by (apply (q_cand _ _ (proj1 HI)); rewrite Ec; now left).
        unfold isPendingQ in Hi. intuition congruence.
      * left. unfold addStateChange. destruct (qs st1 x); cbn; rewrite Ep; apply subseq_refl.
    + left. now apply resolve_pend.
    + left. destruct (e_chg st) as [|x cs] eqn:Ec; [unfold transitionOne; rewrite Ec; apply subseq_refl|].
      enough (E : e_pend (transitionOne P st pre post) = e_pend st) by (rewrite E; apply subseq_refl).
      apply (transitionOne_J P (fun s => e_pend s = e_pend st) x) with (cs := cs); auto.
      * intros s n <-. apply notify_pend.
      * intros s r <-. apply release_raw.
      * intros s s' Hi _ <-. apply (in_pend _ _ Hi).
      * intros s <-. unfold addFinished. destruct (qs s x); reflexivity.
  - left. enough (E : e_pend (act env P st a) = e_pend st) by (rewrite E; apply subseq_refl).
    apply (act_other_J (fun s => e_pend s = e_pend st)); auto.
    + intros s n <-. apply notify_pend.
    + intros s s' Hi _ <-. apply (in_pend _ _ Hi).
Qed.

Lemma run_sorted l w : StronglySorted lep (e_pend (run env P l (e0 w))).
Proof.
  assert (G : forall l st, Inv P st -> StronglySorted lep (e_pend st) -> StronglySorted lep (e_pend (run env P l st))).
  { clear. induction l as [|a l IH]; cbn; intros st HI HH; [exact HH|]. apply IH; [now apply act_Inv|].
    destruct (act_pend st a HI) as [H|(n & _ & ->)]; [eapply subseq_sorted; eauto|now apply insertPrio_sorted]. }
  apply G; [apply (e0_Inv P env)|constructor].
Qed.

(** ---------- a macro step is a sequence of actions ---------- *)
Lemma run_app l1 l2 st : run env P (l1 ++ l2) st = run env P l2 (run env P l1 st).
Proof. unfold run. apply fold_left_app. Qed.

Definition steps st st' : Prop := exists l, st' = run env P l st.
Lemma steps_refl st : steps st st.
Proof. exists []. reflexivity. Qed.
Lemma steps_trans a b c : steps a b -> steps b c -> steps a c.
Proof. intros [l1 ->] [l2 ->]. exists (l1 ++ l2). now rewrite run_app. Qed.
Lemma steps_act st a : steps st (act env P st a).
Proof. exists [a]. reflexivity. Qed.
Lemma steps_iter (f : est W -> est W) n : (forall st, steps st (f st)) -> forall st, steps st (Nat.iter n f st).
Proof. intro H. induction n as [|n IH]; intro st; cbn; [apply steps_refl|]. eapply steps_trans; [apply IH|apply H]. Qed.

Lemma steps_checkAll st : steps st (checkAll P st).
Proof. apply steps_iter. intro s. apply (steps_act s ACheck). Qed.
Lemma steps_transPol pol st : steps st (transPol P pol st).
Proof.
  unfold transPol. destruct (e_chg st); [apply steps_refl|]. destruct (pol st n) as [pre post]. apply (steps_act st (ATransition pre post)).
Qed.
Lemma steps_transAll pol st : steps st (transAll P pol st).
Proof. apply steps_iter. apply steps_transPol. Qed.
Lemma steps_quiesce pol fuel : forall st st', quiesce P pol fuel st = Some st' -> steps st st'.
Proof.
  induction fuel as [|f IH]; intros st st'; cbn; [discriminate|].
  set (st1 := checkAll P st). assert (H1 : steps st st1) by apply steps_checkAll.
  set (st2 := if isNil (e_pend st1) then st1 else resolve P st1).
  assert (H2 : steps st st2).
  { unfold st2. destruct (isNil _); [exact H1|]. eapply steps_trans; [exact H1|]. apply (steps_act _ AResolve). }
  clearbody st1. clearbody st2.
  destruct (isNil (e_chg st2)); [intro E; now inversion E; subst|].
  assert (H3 : steps st (transAll P pol st2)) by (eapply steps_trans; [exact H2|apply steps_transAll]).
  destruct (_ && _).
  - intro E. eapply steps_trans; [exact H3|now apply IH].
  - intro E; now inversion E; subst.
Qed.
Lemma steps_performAssignments pol st : steps st (performAssignments P pol st).
Proof.
  unfold performAssignments. eapply steps_trans; apply steps_iter; intro s.
  - unfold assignPol. destruct (e_asg s); [apply steps_refl|apply (steps_act s (AAssign _))].
  - unfold retractPol. destruct (e_ret s); [apply steps_refl|apply (steps_act s (ARetract _))].
Qed.
Lemma steps_macroStep pol fuel st st' : macroStep P pol fuel st = Some st' -> steps st st'.
Proof.
  unfold macroStep. destruct (quiesce P pol fuel st) as [st1|] eqn:E; [|discriminate].
  intro H; inversion H; subst. eapply steps_trans; [eapply steps_quiesce; eauto|].
  eapply steps_trans; [apply steps_performAssignments|apply (steps_act _ AOutbound)].
Qed.
End Runs.
